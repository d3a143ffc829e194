(** C10, C11: unification. The specification is [sat] (Valuation.v): a valuation of heap addresses by finite ground
    terms satisfies a heap iff it satisfies every cell. *)
From Verif Require Import Base Machine Heap Facts HeapSim Compiler Spec Print Valuation UnifyTop.

(** C10. [par] reads the heaps of the ancestors, [lh] is the executor's own layer, [h] what it reads in all. *)
Theorem C10_unify_is_most_general : forall sto par lh h fuel a b,
  NoDup (s_functors sto) -> hrel par lh h -> wfh sto 0 h -> a < List.length h -> b < List.length h ->
  match unify lheap (lops par) fuel lh a b with
  | Val (true, lh') =>
      exists h', hrel par lh' h' /\ wfh sto 0 h' /\ List.length h' = List.length h /\
                 forall rho, sat sto rho h' <-> sat sto rho h /\ rho a = rho b
  | Val (false, _) => forall rho, sat sto rho h -> rho a <> rho b
  | Ub _ => False
  | Fuel => True
  end.
Proof. exact unify_layered. Qed.
Print Assumptions C10_unify_is_most_general.

(** C11 *)
Theorem C11_unify_terminates : forall sto par lh h rho a b,
  NoDup (s_functors sto) -> hrel par lh h -> wfh sto 0 h -> a < List.length h -> b < List.length h ->
  sat sto rho h -> rho a = rho b ->
  exists n, forall fuel, n <= fuel -> exists lh', unify lheap (lops par) fuel lh a b = Val (true, lh').
Proof. exact unify_layered_terminates. Qed.
Print Assumptions C11_unify_terminates.

(** C11, second half: two cyclic terms *)
Theorem C11_unify_may_loop : exists h a b, forall fuel, unify (list cell) fops fuel h a b = Fuel.
Proof. exact (ex_intro _ cyc1 (ex_intro _ 0 (ex_intro _ 1 unify_cyclic_loops))). Qed.
Print Assumptions C11_unify_may_loop.

(** The hypotheses are met: unifying f(X,b) with f(a,Y), split over two layers. *)
Definition ex_sto : storage := {| s_functors := [FV "f"%string 2; FV "a"%string 0; FV "b"%string 0]; s_vars := ["X"%string; "Y"%string] |}.
Definition ex_flat : list cell := [CFun 0 2; CRef 1 0; CCons 2; CFun 0 2; CCons 1; CRef 5 1].
Definition ex_par (i : nat) : option cell := nth_error (firstn 3 ex_flat) i.
Definition ex_lh : lheap := {| l_start := 3; l_changes := []; l_own := skipn 3 ex_flat |}.
Example C10_hypotheses_met :
  NoDup (s_functors ex_sto) /\ hrel ex_par ex_lh ex_flat /\ wfh ex_sto 0 ex_flat /\
  unify lheap (lops ex_par) 10 ex_lh 0 3 =
    Val (true, {| l_start := 3; l_changes := [(1, CRef 4 0)]; l_own := [CFun 0 2; CCons 1; CRef 2 1] |}).
Proof.
  split; [repeat constructor; cbn; intuition discriminate|]. split.
  { split; [reflexivity|]. intros i. do 6 (destruct i as [|i]; [reflexivity|]). unfold l_at. cbn. now destruct i. }
  split; [|vm_compute; reflexivity]. split.
  - intros a c Ha.
    destruct a as [|[|[|[|[|[|a]]]]]]; cbn in Ha; try (injection Ha as <-; cbn).
    + split; [lia|]. split; [exists "f"%string; reflexivity|lia].
    + lia.
    + exists "b"%string. reflexivity.
    + split; [lia|]. split; [exists "f"%string; reflexivity|lia].
    + exists "a"%string. reflexivity.
    + lia.
    + destruct a; discriminate.
  - intros a Ha. exists 0, a. constructor; [assumption|].
    destruct a as [|[|[|[|[|[|a]]]]]]; try reflexivity. cbn in Ha. lia.
Qed.
