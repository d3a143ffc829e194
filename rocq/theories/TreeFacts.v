(** The unification tree: its nodes, their numbers and what they stand for. *)
From Coq Require Import Sorting.Permutation.
From Verif Require Import Base Machine Heap Facts HeapSim Compiler Parser Print Organizer Process Refine Turn Shape Mono Session
  Search Order Runs Parsed Tables Root Clause Atoms Tree TreeTurn TreeInv TreeRun TreeSrc.
Open Scope list_scope.

(** --- nodes in preorder: whether it is a query node, its executor and its number --- *)
Fixpoint q_pre (t : qnode) : list (bool * nat * nat) :=
  match t with
  | QNode ex id _ ks =>
      (true, ex, id) :: (fix go (l : list bnode) := match l with [] => [] | b :: l' => b_pre b ++ go l' end) ks
  end
with b_pre (b : bnode) : list (bool * nat * nat) :=
  match b with
  | BNode ex id _ c => (false, ex, id) :: match c with BQuery q => q_pre q | _ => [] end
  end.
Definition q_ids (t : qnode) : list nat := map snd (q_pre t).
Definition q_execs (t : qnode) : list nat := map (fun x => snd (fst x)) (q_pre t).
(** the answers at the leaves *)
Fixpoint q_finals (t : qnode) : list (nat * list (string * string)) :=
  match t with
  | QNode ex id _ ks =>
      (fix go (l : list bnode) := match l with [] => [] | b :: l' => b_finals b ++ go l' end) ks
  end
with b_finals (b : bnode) : list (nat * list (string * string)) :=
  match b with
  | BNode ex id _ c => match c with BQuery q => q_finals q | BFinal b => [(ex, b)] | BNone => [] end
  end.

Lemma q_pre_eq ex id nm ks : q_pre (QNode ex id nm ks) = (true, ex, id) :: flat_map b_pre ks.
Proof. reflexivity. Qed.
Lemma b_pre_eq ex id bs c : b_pre (BNode ex id bs c) = (false, ex, id) :: match c with BQuery q => q_pre q | _ => [] end.
Proof. reflexivity. Qed.
Lemma q_finals_eq ex id nm ks : q_finals (QNode ex id nm ks) = flat_map b_finals ks.
Proof. reflexivity. Qed.

Lemma qnode_ind2 (P : qnode -> Prop) (Q : bnode -> Prop) :
  (forall ex id nm ks, Forall Q ks -> P (QNode ex id nm ks)) ->
  (forall ex id bs, Q (BNode ex id bs BNone)) ->
  (forall ex id bs b, Q (BNode ex id bs (BFinal b))) ->
  (forall ex id bs q, P q -> Q (BNode ex id bs (BQuery q))) -> forall t, P t.
Proof.
  intros HQ HN HF HB. fix IH 1. intros [ex id nm ks]. apply HQ.
  induction ks as [|b ks IHk]; constructor; [|exact IHk].
  destruct b as [ex' id' bs [|b|q]]; [apply HN|apply HF|apply HB; apply IH].
Qed.

Section Pure.
Variable fuel : nat.
Variable o : org.

(** the children of a query node *)
Definition make_b (n c k : nat) : out (bnode * nat) :=
  ke <- get_exec o k ;;
  '(b, c1) <- (match x_state ke with
               | SSuccess => b <- find_subs fuel o k ;; Val (BFinal b, S c)
               | SArchived => j <- last_child ke ;; '(q, c1) <- make_q fuel n o j (S c) ;; Val (BQuery q, c1)
               | _ => Val (BNone, S c)
               end) ;;
  Val (BNode k c None b, c1).
Fixpoint make_bs (n : nat) (l : list nat) (c : nat) : out (list bnode * nat) :=
  match l with
  | [] => Val ([], c)
  | k :: l' => '(b, c1) <- make_b n c k ;; '(r, c2) <- make_bs n l' c1 ;; Val (b :: r, c2)
  end.
Lemma make_q_eq n id cnt : make_q fuel (S n) o id cnt =
  (e <- get_exec o id ;; '(ks, c) <- make_bs n (x_kids e) (S cnt) ;; Val (QNode id cnt None ks, c)).
Proof.
  cbn [make_q]. destruct (get_exec o id) as [e| |]; cbn [bind]; auto.
  assert (E : forall l c, (fix go (l : list nat) (c : nat) : out (list bnode * nat) :=
           match l with
           | [] => Val ([], c)
           | k :: l' =>
               ke <- get_exec o k ;;
               '(b, c1) <- (match x_state ke with
                            | SSuccess => b <- find_subs fuel o k ;; Val (BFinal b, S c)
                            | SArchived => j <- last_child ke ;; '(q, c1) <- make_q fuel n o j (S c) ;; Val (BQuery q, c1)
                            | _ => Val (BNone, S c)
                            end) ;;
               '(r, c2) <- go l' c1 ;;
               Val (BNode k c None b :: r, c2)
           end) l c = make_bs n l c).
  { induction l as [|k l IH]; intros c; cbn [make_bs]; [reflexivity|]. unfold make_b.
    destruct (get_exec o k) as [ke| |]; cbn [bind]; auto.
    match goal with |- context [bind (match x_state ke with _ => _ end) ?f] => destruct (match x_state ke with
                            | SSuccess => b <- find_subs fuel o k ;; Val (BFinal b, S c)
                            | SArchived => j <- last_child ke ;; '(q, c1) <- make_q fuel n o j (S c) ;; Val (BQuery q, c1)
                            | _ => Val (BNone, S c)
                            end) as [[b c1]| |] end; cbn [bind]; auto. rewrite IH. reflexivity. }
  now rewrite E.
Qed.

Lemma make_b_case n c k b c1 : make_b n c k = Val (b, c1) -> exists ke, nth_error (o_arena o) k = Some ke /\
  match x_state ke with
  | SSuccess => exists l, find_subs fuel o k = Val l /\ b = BNode k c None (BFinal l) /\ c1 = S c
  | SArchived => exists j q, last_child ke = Val j /\ make_q fuel n o j (S c) = Val (q, c1) /\ b = BNode k c None (BQuery q)
  | _ => b = BNode k c None BNone /\ c1 = S c
  end.
Proof.
  unfold make_b. intros E. apply bind_val in E. destruct E as (ke & Ek & E). apply of_opt_val in Ek. exists ke. split; [assumption|].
  apply bind_val in E. destruct E as ([x c2] & E1 & E). injection E as <- <-.
  destruct (x_state ke).
  - now injection E1 as <- <-.
  - now injection E1 as <- <-.
  - apply bind_val in E1. destruct E1 as (l & El & E1). injection E1 as <- <-. eauto.
  - apply bind_val in E1. destruct E1 as (j & Ej & E1). apply bind_val in E1. destruct E1 as ([q c3] & Eq & E1).
    injection E1 as <- <-. eauto.
  - now injection E1 as <- <-.
Qed.
End Pure.

Definition omap {A B} (f : A -> out B) : list A -> out (list B) :=
  fix go (l : list A) : out (list B) := match l with [] => Val [] | x :: l' => y <- f x ;; r <- go l' ;; Val (y :: r) end.
Lemma omap_val {A B} (f : A -> out B) l : forall l', omap f l = Val l' -> Forall2 (fun x y => f x = Val y) l l'.
Proof.
  induction l as [|x l IH]; intros l' E; cbn in E; [injection E as <-; constructor|].
  apply bind_val in E. destruct E as (y & Ey & E). fold (omap f) in E. apply bind_val in E. destruct E as (r & Er & E). injection E as <-. constructor; auto.
Qed.

(** the tree without names and bindings *)
Fixpoint strip (t : qnode) : qnode :=
  match t with
  | QNode ex id _ ks => QNode ex id None ((fix go (l : list bnode) := match l with [] => [] | b :: l' => strip_b b :: go l' end) ks)
  end
with strip_b (b : bnode) : bnode :=
  match b with
  | BNode ex id _ c => BNode ex id None (match c with BQuery q => BQuery (strip q) | _ => c end)
  end.
Lemma strip_eq ex id nm ks : strip (QNode ex id nm ks) = QNode ex id None (map strip_b ks).
Proof. reflexivity. Qed.
Lemma strip_pre : forall t, q_pre (strip t) = q_pre t.
Proof.
  apply (qnode_ind2 _ (fun b => b_pre (strip_b b) = b_pre b)); auto.
  - intros ex id nm ks H. rewrite strip_eq, !q_pre_eq. f_equal. induction H as [|b ks Hb H IH]; [reflexivity|]. cbn [map flat_map]. now rewrite Hb, IH.
  - intros ex id bs q H. cbn [strip_b b_pre]. now rewrite H.
Qed.
Lemma strip_finals : forall t, q_finals (strip t) = q_finals t.
Proof.
  apply (qnode_ind2 _ (fun b => b_finals (strip_b b) = b_finals b)); auto.
  intros ex id nm ks H. rewrite strip_eq, !q_finals_eq. induction H as [|b ks Hb H IH]; [reflexivity|]. cbn [map flat_map]. now rewrite Hb, IH.
Qed.

Section Ids.
Variable fuel : nat.
Variable o : org.

Lemma seq_cut a b c : a <= b -> b <= c -> seq a (b - a) ++ seq b (c - b) = seq a (c - a).
Proof. intros H K. replace (c - a) with ((b - a) + (c - b)) by lia. rewrite seq_app. f_equal. f_equal. lia. Qed.

Lemma make_q_ids n : forall id cnt t c, make_q fuel n o id cnt = Val (t, c) -> q_ids t = seq cnt (c - cnt) /\ cnt < c.
Proof.
  induction n as [|n IH]; intros id cnt t c E; [discriminate|]. rewrite make_q_eq in E.
  apply bind_val in E. destruct E as (e & _ & E). apply bind_val in E. destruct E as ([ks c1] & E & E1). injection E1 as <- <-.
  assert (K : forall l c ks c1, make_bs fuel o n l c = Val (ks, c1) -> map snd (flat_map b_pre ks) = seq c (c1 - c) /\ c <= c1).
  { induction l as [|k l IHl]; intros c0 ks0 c2 E0; cbn [make_bs] in E0.
    - injection E0 as <- <-. rewrite Nat.sub_diag. auto.
    - apply bind_val in E0. destruct E0 as ([b c3] & Eb & E0). apply bind_val in E0. destruct E0 as ([r c4] & Er & E0).
      injection E0 as <- <-. destruct (IHl _ _ _ Er) as [K1 K2]. cbn [flat_map]. rewrite map_app, K1.
      assert (Kb : map snd (b_pre b) = seq c0 (c3 - c0) /\ c0 < c3).
      { destruct (make_b_case _ _ _ _ _ _ _ Eb) as (ke & _ & Hc).
        assert (One : S c0 - c0 = 1) by lia.
        destruct (x_state ke); [destruct Hc as [-> ->]|destruct Hc as [-> ->]|destruct Hc as (l0 & _ & -> & ->)|destruct Hc as (j & q & _ & Eq & ->)|destruct Hc as [-> ->]];
          try (cbn [b_pre map snd]; rewrite One; split; [reflexivity|lia]).
        destruct (IH _ _ _ _ Eq) as [Q1 Q2]. rewrite b_pre_eq. cbn [map snd]. change (map snd (q_pre q)) with (q_ids q).
        rewrite Q1. split; [|lia]. replace (c3 - c0) with (S (c3 - S c0)) by lia. reflexivity. }
      destruct Kb as [Kb1 Kb2]. rewrite Kb1, seq_cut by lia. split; [reflexivity|lia]. }
  destruct (K _ _ _ _ E) as [K1 K2]. unfold q_ids. rewrite q_pre_eq. cbn [map snd]. rewrite K1. split; [|lia].
  replace (c1 - cnt) with (S (c1 - S cnt)) by lia. reflexivity.
Qed.

(** resolving the names changes neither nodes nor answers *)
Lemma resolve_q_eq ex id nm ks : resolve_q fuel o (QNode ex id nm ks) =
  (e <- get_exec o ex ;; nm <- query_name fuel o e ;; str <- node_str nm ;;
   if has_failed e || is_running e then Val (QNode ex id (Some (nm, str)) ks)
   else ks' <- omap (resolve_b fuel o nm) ks ;; Val (QNode ex id (Some (nm, str)) ks')).
Proof. reflexivity. Qed.
Lemma resolve_strip : forall t t', resolve_q fuel o t = Val t' -> strip t' = strip t.
Proof.
  apply (qnode_ind2 (fun t => forall t', resolve_q fuel o t = Val t' -> strip t' = strip t) (fun b => forall nm b', resolve_b fuel o nm b = Val b' -> strip_b b' = strip_b b)).
  - intros ex id nm ks H t' E. rewrite resolve_q_eq in E. apply bind_val in E. destruct E as (e & _ & E).
    apply bind_val in E. destruct E as (n & _ & E). apply bind_val in E. destruct E as (s & _ & E).
    destruct (has_failed e || is_running e)%bool; [now injection E as <-|].
    apply bind_val in E. destruct E as (ks' & Ek & E). injection E as <-. rewrite !strip_eq. f_equal.
    apply omap_val in Ek. induction Ek as [|b b' ks ks' Eb Ek IH]; [reflexivity|]. inversion H as [|? ? Hb Hk]; subst.
    cbn [map]. rewrite (Hb _ _ Eb). f_equal. now apply IH.
  - intros ex id bs nm b' E. cbn [resolve_b] in E. apply bind_val in E. destruct E as (e & _ & E).
    destruct (has_failed e || is_running e)%bool; [now injection E as <-|]. apply bind_val in E. destruct E as (l & _ & E). discriminate.
  - intros ex id bs b nm b' E. cbn [resolve_b] in E. apply bind_val in E. destruct E as (e & _ & E).
    destruct (has_failed e || is_running e)%bool; [now injection E as <-|]. apply bind_val in E. destruct E as (l & _ & E). now injection E as <-.
  - intros ex id bs q H nm b' E. cbn [resolve_b] in E. apply bind_val in E. destruct E as (e & _ & E).
    destruct (has_failed e || is_running e)%bool; [now injection E as <-|]. apply bind_val in E. destruct E as (l & _ & E).
    apply bind_val in E. destruct E as (q' & Eq & E). injection E as <-. cbn [strip_b]. now rewrite (H _ Eq).
Qed.
Lemma make_tree_cut t : make_tree fuel o = Val t -> exists t0 c,
  make_q fuel (S (List.length (o_arena o))) o 0 0 = Val (t0, c) /\ strip t = strip t0.
Proof.
  unfold make_tree. intros E. apply bind_val in E. destruct E as ([t0 c] & E0 & E). exists t0, c. split; [assumption|].
  now apply resolve_strip.
Qed.
Lemma tree_ids t : make_tree fuel o = Val t -> q_ids t = seq 0 (List.length (q_ids t)).
Proof.
  intros E. destruct (make_tree_cut t E) as (t0 & c & E0 & Es). destruct (make_q_ids _ _ _ _ _ E0) as [K _].
  assert (Ei : q_ids t = q_ids t0) by (unfold q_ids; now rewrite <- strip_pre, Es, strip_pre).
  rewrite Ei, K, seq_length. reflexivity.
Qed.
End Ids.
