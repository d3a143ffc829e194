(** Printed lists (C27). *)
From Verif Require Import Base Machine Heap Facts HeapSim Compiler Parser Print Organizer Spec Valuation Process Refine Mono Turn Shape Session
  Code Put Search PutRun Get Alloc Atoms Clause Stack Ready Heads Builtins Sols Solve Terms Shown Parsed Tables Root Order Runs Answers
  Clash Sim Cells Examples Witness Finite Tree TreeTurn TreeInv TreeRun TreeSrc TreeFacts TreeShape TreeAll TreeCase Labels Bound Names Returns Clean Shows Flat Safe Texts Naming.
Open Scope string_scope.

(** The elements [ts] followed by [tail]. *)
Definition tm_list (ts : list tm) (tail : tm) : tm := fold_right (fun x r => TFun "[" [x; r]) tail ts.
Definition tail_sep (t : tm) : string := match t with TVar _ _ => "|" | _ => "," end.
Definition nil_tm : tm := TFun "[" [].
Fixpoint but_last (s : string) : string :=
  match s with
  | EmptyString => EmptyString
  | String _ EmptyString => EmptyString
  | String a s' => String a (but_last s')
  end.

Lemma relast_app u v c : v <> "" -> relast (u ++ v) c = u ++ relast v c.
Proof.
  intros N. induction u as [|a u IH]; [reflexivity|]. cbn [append relast]. rewrite <- IH.
  destruct (u ++ v) eqn:E; [|reflexivity]. exfalso. destruct u; [now apply N|discriminate E].
Qed.
Lemma relast_but_last s c : s <> "" -> relast s c = but_last s ++ String c "".
Proof.
  induction s as [|a s IH]; intros N; [now elim N|]. destruct s as [|b s]; [reflexivity|].
  change (String a (relast (String b s) c) = String a (but_last (String b s) ++ String c "")). now rewrite IH.
Qed.
Lemma cell_printed contig x r : printed contig (TFun "[" [x; r]) =
  let body := printed false x ++ tail_sep r ++ printed true r in if contig then body else relast ("[" ++ body) "]".
Proof. reflexivity. Qed.
Lemma list_body ts tail : ts <> [] -> printed true (tm_list ts tail) = String.concat "," (map (printed false) ts) ++ tail_sep tail ++ printed true tail.
Proof.
  induction ts as [|x ts IH]; intros N; [now elim N|]. cbn [tm_list fold_right]. rewrite cell_printed. cbn zeta iota. destruct ts as [|y ts]; [reflexivity|].
  assert (IH' := IH ltac:(discriminate)). unfold tm_list in IH'. rewrite IH'. cbn [map String.concat]. cbn [fold_right tail_sep]. now rewrite !app_assoc_s.
Qed.
Theorem list_printed ts tail : ts <> [] ->
  printed false (tm_list ts tail) = "[" ++ String.concat "," (map (printed false) ts) ++ relast (tail_sep tail ++ printed true tail) "]".
Proof.
  intros N. destruct ts as [|x ts]; [now elim N|]. pose proof (list_body (x :: ts) tail N) as B. cbn [tm_list fold_right] in *. rewrite cell_printed in B |- *. cbn zeta iota in *.
  rewrite B, relast_app, relast_app; [reflexivity|destruct tail; discriminate|]. destruct (String.concat "," (map (printed false) (x :: ts))); [destruct tail; discriminate|discriminate].
Qed.
Theorem list_closed ts : ts <> [] -> printed false (tm_list ts nil_tm) = "[" ++ String.concat "," (map (printed false) ts) ++ "]".
Proof. intros N. now rewrite list_printed. Qed.
(** a tail is shown without its last character *)
Theorem list_open ts tail : ts <> [] -> printed true tail <> "" ->
  printed false (tm_list ts tail) = "[" ++ String.concat "," (map (printed false) ts) ++ tail_sep tail ++ but_last (printed true tail) ++ "]".
Proof. intros N T. rewrite list_printed by assumption. now rewrite relast_app, relast_but_last. Qed.

Theorem answers_lists cf o P q rs o' b : ord_ok cf -> session cf o P (QFresh q) -> small_tables (o_sto o) ->
  (Z.of_nat (List.length (s_vars (o_sto o))) <= 32768)%Z -> no_clash cf P -> run cf o rs o' -> In (RAnswer b) (delivered rs) ->
  exists sg, (forall x s, In (x, s) b -> s = printed false (sg x) /\
      forall ts tail, ts <> [] -> sg x = tm_list ts tail ->
        s = ("[" ++ String.concat "," (map (printed false) ts) ++ relast (tail_sep tail ++ printed true tail) "]")%string) /\
    (no_cycles cf o -> forall g a, In a q -> prov (pow_of cf) (P ++ append_prog)%list (inst (fun x => ginst g (sg x)) a)).
Proof.
  intros OK HS SM VT NC HR Hb. destruct (answers_named cf OK o P q HS SM VT NC rs o' b HR Hb) as (sg & base & R & _ & K).
  exists sg. split; [|exact K]. intros x s I. split; [exact (R x s I)|]. intros ts tail N E. rewrite (R x s I), E. now apply list_printed.
Qed.
