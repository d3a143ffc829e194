(** Concrete counterexamples, from source text to answers. *)
From Verif Require Import Base Machine Heap Compiler Parser Print Organizer Examples Spec.
Open Scope string_scope.
Open Scope list_scope.

Definition pw0 : Z -> Z -> option Z := fun a b => if (b <? 0)%Z then None else Some (a ^ b)%Z.

(** C02: p(X) :- q(A). calls q with the value of X *)
Definition clash1 : list (list node) := [[NFun "p" [NVar "X"]; NFun "q" [NVar "A"]]; [NFun "q" [NCon "b"]]].
Lemma body_args_wrong :
  exists program query cs q,
    parse_program program = Some (COk cs) /\ parse_query (append_dot query) = Some (COk q) /\
    (exists v, forall a, In a q -> prov pw0 (cs ++ append_prog) (inst v a)) /\
    ask 1 program query = Some (LOk, LOk, [Val RFalse]).
Proof.
  exists "p(X) :- q(A). q(b).", "p(a)", clash1, [NFun "p" [NCon "a"]].
  split; [vm_compute; reflexivity|]. split; [vm_compute; reflexivity|]. split; [|vm_compute; reflexivity].
  exists (fun _ => GCon "a"). intros a [<-|[]].
  set (v := fun s : string => if s =? "X" then GCon "a" else GCon "b").
  change (inst _ _) with (inst v (NFun "p" [NVar "X"])).
  apply prov_clause with (b := [NFun "q" [NVar "A"]]); [now left|].
  intros b [<-|[]].
  change (inst _ _) with (inst v (NFun "q" [NCon "b"])).
  apply prov_clause with (b := []); [now right; left|]. intros b [].
Qed.

(** C02: p(X) :- q(A,B,X). calls q(A,B,B), a wrong answer *)
Definition clash2 : list (list node) :=
  [[NFun "p" [NVar "X"]; NFun "q" [NVar "A"; NVar "B"; NVar "X"]]; [NFun "q" [NCon "a"; NCon "b"; NCon "b"]]].
Lemma clash_unsound :
  exists program query cs q,
    parse_program program = Some (COk cs) /\ parse_query (append_dot query) = Some (COk q) /\
    ask 1 program query = Some (LOk, LOk, [Val (RAnswer [])]) /\
    ~ (exists v, forall a, In a q -> prov pw0 (cs ++ append_prog) (inst v a)).
Proof.
  exists "p(X) :- q(A,B,X). q(a,b,b).", "p(c)", clash2, [NFun "p" [NCon "c"]].
  split; [vm_compute; reflexivity|]. split; [vm_compute; reflexivity|]. split; [vm_compute; reflexivity|].
  intros [v Hv]. specialize (Hv _ (or_introl eq_refl)). cbn in Hv.
  assert (Hq : forall t, prov pw0 (clash2 ++ append_prog) t ->
                match t with
                | GFun s l => (s = "q" -> l = [GCon "a"; GCon "b"; GCon "b"]) /\ (s = "p" -> l = [GCon "b"])
                | _ => True end).
  { intros t Ht. induction Ht as [h b w Hin Hb IH| | |]; try (split; discriminate).
    cbn in Hin. repeat destruct Hin as [Hin|Hin]; try contradiction; inversion Hin; subst; cbn;
      split; try discriminate; try reflexivity.
    intros _. specialize (IH _ (or_introl eq_refl)). cbn in IH. destruct IH as [IH _].
    specialize (IH eq_refl). congruence. }
  apply Hq in Hv. destruct Hv as [_ Hv]. specialize (Hv eq_refl). discriminate.
Qed.

(** C06: r(b) takes ten goals and r(a) nine, but r(b) is answered first *)
Definition text6 : string :=
  "r(a) :- c, e. c :- d(X), g(X). g(X) :- d(X), h(X). h(X) :- d(X), d(X). d(a). e. r(b) :- i. i :- j. j :- k. k :- l. l :- m. m :- n. n :- o. o :- p. p :- q. q.".
Definition prog6 : list (list node) :=
  [[NFun "r" [NCon "a"]; NCon "c"; NCon "e"]; [NCon "c"; NFun "d" [NVar "X"]; NFun "g" [NVar "X"]];
   [NFun "g" [NVar "X"]; NFun "d" [NVar "X"]; NFun "h" [NVar "X"]];
   [NFun "h" [NVar "X"]; NFun "d" [NVar "X"]; NFun "d" [NVar "X"]];
   [NFun "d" [NCon "a"]]; [NCon "e"]; [NFun "r" [NCon "b"]; NCon "i"]; [NCon "i"; NCon "j"]; [NCon "j"; NCon "k"];
   [NCon "k"; NCon "l"]; [NCon "l"; NCon "m"]; [NCon "m"; NCon "n"]; [NCon "n"; NCon "o"]; [NCon "o"; NCon "p"];
   [NCon "p"; NCon "q"]; [NCon "q"]].
(** a lower bound on the number of goals *)
Definition lb6 (t : gterm) : nat :=
  match t with
  | GFun "r" [GCon "b"] => 10
  | GCon "i" => 9 | GCon "j" => 8 | GCon "k" => 7 | GCon "l" => 6 | GCon "m" => 5
  | GCon "n" => 4 | GCon "o" => 3 | GCon "p" => 2
  | _ => 1
  end.
Lemma lb6_ok : forall n t, prov_in pw0 (prog6 ++ append_prog) n t -> lb6 t <= n.
Proof.
  intros n. induction n as [n IH] using lt_wf_ind. intros t Ht.
  inversion Ht as [h b v ns Hin Hf Hn Hv| | |]; subst; try (cbn; lia).
  cbn in Hin.
  repeat destruct Hin as [Hin|Hin]; try contradiction; inversion Hin; subst; clear Hin; cbn; try lia;
  inversion Hf as [|a1 n1 b1 ns1 H1 H2]; subst; clear Hf; inversion H2; subst; cbn in H1, IH |- *;
  apply IH in H1; cbn in H1; try lia.
Qed.
Lemma order_wrong :
  exists program query cs q,
    parse_program program = Some (COk cs) /\ parse_query (append_dot query) = Some (COk [q]) /\
    ask 2 program query = Some (LOk, LOk, [Val (RAnswer [("Z", "b")]); Val (RAnswer [("Z", "a")])]) /\
    prov_in pw0 (cs ++ append_prog) 9 (inst (fun _ => GCon "a") q) /\
    (forall n, prov_in pw0 (cs ++ append_prog) n (inst (fun _ => GCon "b") q) -> 9 < n).
Proof.
  exists text6, "r(Z)", prog6, (NFun "r" [NVar "Z"]).
  split; [vm_compute; reflexivity|]. split; [vm_compute; reflexivity|]. split; [vm_compute; reflexivity|].
  split; [|intros n Hn; apply lb6_ok in Hn; cbn in Hn; lia].
  set (v := fun _ : string => GCon "a").
  set (P := prog6 ++ append_prog).
  assert (Hd : prov_in pw0 P 1 (GFun "d" [GCon "a"])).
  { exact (pin_clause pw0 P (NFun "d" [NCon "a"]) [] v [] ltac:(cbn; tauto) (Forall2_nil _)). }
  assert (Hh : prov_in pw0 P 3 (GFun "h" [GCon "a"])).
  { refine (pin_clause pw0 P (NFun "h" [NVar "X"]) [NFun "d" [NVar "X"]; NFun "d" [NVar "X"]] v [1; 1] ltac:(cbn; tauto) _);
      repeat constructor; exact Hd. }
  assert (Hg : prov_in pw0 P 5 (GFun "g" [GCon "a"])).
  { refine (pin_clause pw0 P (NFun "g" [NVar "X"]) [NFun "d" [NVar "X"]; NFun "h" [NVar "X"]] v [1; 3] ltac:(cbn; tauto) _);
      repeat constructor; [exact Hd|exact Hh]. }
  assert (Hc : prov_in pw0 P 7 (GCon "c")).
  { refine (pin_clause pw0 P (NCon "c") [NFun "d" [NVar "X"]; NFun "g" [NVar "X"]] v [1; 5] ltac:(cbn; tauto) _);
      repeat constructor; [exact Hd|exact Hg]. }
  assert (He : prov_in pw0 P 1 (GCon "e")).
  { exact (pin_clause pw0 P (NCon "e") [] v [] ltac:(cbn; tauto) (Forall2_nil _)). }
  refine (pin_clause pw0 P (NFun "r" [NCon "a"]) [NCon "c"; NCon "e"] v [7; 1] ltac:(cbn; tauto) _);
    repeat constructor; [exact Hc|exact He].
Qed.

(** C18: 3^16 is not a float *)
Lemma odd_not_float : forall m e, (Z.abs m <= 16777216)%Z -> trunc_fval (FFin m e) <> Some 43046721%Z.
Proof.
  intros m e Hm H. cbn in H. destruct (0 <=? e)%Z eqn:He.
  - apply Z.leb_le in He. injection H as H. destruct (Z.eq_dec e 0) as [->|Hne].
    + rewrite Z.pow_0_r in H. lia.
    + replace e with (Z.succ (e - 1)) in H by lia. rewrite Z.pow_succ_r in H by lia.
      assert (Heven : Z.even 43046721 = true).
      { rewrite <- H. rewrite Z.even_mul. rewrite (Z.even_mul 2). cbn. now rewrite orb_true_r. }
      discriminate.
  - apply Z.leb_gt in He. injection H as H.
    assert (Hp : (0 < 2 ^ (- e))%Z) by (apply Z.pow_pos_nonneg; lia).
    assert (Hq : (Z.abs (Z.quot m (2 ^ (-e))) <= Z.abs m)%Z).
    { rewrite <- Z.quot_abs by lia. rewrite (Z.abs_eq (2 ^ (- e))) by lia.
      apply Z.quot_le_upper_bound; [lia|]. nia. }
    rewrite H in Hq. change (Z.abs 43046721) with 43046721%Z in Hq. lia.
Qed.

(** powf rounding to the nearest float (24 bits), ties to even *)
Definition powf_rn (a b : Z) : fval :=
  let v := (a ^ b)%Z in
  let e := (Z.log2 (Z.abs v) - 23)%Z in
  if (e <=? 0)%Z then FFin v 0
  else
    let q := (v / 2 ^ e)%Z in
    let r := (v mod 2 ^ e)%Z in
    FFin (match (2 * r ?= 2 ^ e)%Z with Lt => q | Gt => q + 1 | Eq => if Z.even q then q else q + 1 end)%Z e.
Lemma pow_wrong :
  (3 ^ 16 = 43046721)%Z /\
  ask_pow powf_rn "X is 3^16" = Some (Val (RAnswer [("X", "43046720")])) /\
  forall cf, (forall a b m e, c_powf cf a b = FFin m e -> Z.abs m <= 16777216)%Z ->
    apply_op cf 0 3 16 <> Val 43046721%Z.
Proof.
  split; [reflexivity|]. split; [vm_compute; reflexivity|].
  intros cf Hf H. unfold apply_op in H. destruct (c_powf cf 3 16) as [m e| |] eqn:Hp; try discriminate.
  apply Hf in Hp. destruct (trunc_fval (FFin m e)) as [z|] eqn:Hz; [|discriminate].
  unfold to_int in H. destruct (_ && _)%bool in H; [|discriminate]. injection H as ->.
  now apply odd_not_float in Hz.
Qed.

(** C19 *)
Lemma assoc_wrong : ask 1 "" "X is 10-3-2" = Some (LOk, LOk, [Val (RAnswer [("X", "9")])]) /\
                    ask 1 "" "X is 16//4//2" = Some (LOk, LOk, [Val (RAnswer [("X", "8")])]).
Proof. split; vm_compute; reflexivity. Qed.

(** C20: reading the heap at a functor table index *)
Lemma not_arith_crash :
  ask 1 "bar(a,b,c,d,e,f,g,h,i,j,k,l,m,n,o,p). e(foo)." "e(Y), X is Y" = Some (LOk, LOk, [Ub UHeap]).
Proof. vm_compute. reflexivity. Qed.
Lemma not_arith_wrong_name :
  ask 1 "e(foo(a,b,c))." "e(Y), X is Y" = Some (LOk, LOk, [Val (RError (ENotArith (FV "a" 0)))]).
Proof. vm_compute. reflexivity. Qed.

(** C27 *)
Lemma partial_list_wrong :
  ask 1 "p([a|X],X)." "p(Y,Z)" = Some (LOk, LOk, [Val (RAnswer [("Y", "[a|]"); ("Z", "Z")])]) /\
  ask 1 "" "append([a],foo(b),Y)" = Some (LOk, LOk, [Val (RAnswer [("Y", "[a,foo(b]")])]).
Proof. split; vm_compute; reflexivity. Qed.

(** C31 *)
Lemma reload_dangling :
  exists o r o1 o2,
    loaded "p(a). p(b). p(c)." "p(X)" = Some o /\
    get_answer cfg0 1000 1000 w0 o = Val (r, o1) /\
    load_program cfg0 "p(c)." o1 = Some (LOk, o2) /\
    get_answer cfg0 1000 1000 w0 o2 = Ub UDangling.
Proof.
  eexists _, _, _, _. split; [vm_compute; reflexivity|]. split; [vm_compute; reflexivity|].
  split; [vm_compute; reflexivity|]. vm_compute. reflexivity.
Qed.

(** C32: a world in which the first allocation fails *)
Definition w_full : world := {| w_time := fun _ => 0%Z; w_oom := fun _ => true |}.
Lemma oom_loses_built_ins :
  exists o o1 o2 o3 o4,
    loaded "p(a)." "p(X)" = Some o /\
    get_answer cfg0 1000 1000 w_full o = Val (ROutOfMemory, o1) /\
    load_program cfg0 "p(a)." o1 = Some (LOk, o2) /\
    load_query cfg0 "append([a],[b],L)" o2 = Some (LOk, o3) /\
    get_answer cfg0 1000 1000 w0 o3 = Val (RFalse, o4) /\
    ask 1 "p(a)." "append([a],[b],L)" = Some (LOk, LOk, [Val (RAnswer [("L", "[a,b]")])]).
Proof.
  eexists _, _, _, _, _. split; [vm_compute; reflexivity|]. split; [vm_compute; reflexivity|].
  split; [vm_compute; reflexivity|]. split; [vm_compute; reflexivity|]. split; vm_compute; reflexivity.
Qed.

(** C38 *)
Lemma big_literal_escapes :
  ask 0 "" "X is 2147483648" = Some (LOk, LEscape, []) /\
  ask 0 "p(2147483648)." "p(X)" = Some (LEscape, LOk, []).
Proof. split; vm_compute; reflexivity. Qed.

(** C39 *)
Lemma trailing_text_silent :
  exists l, ask 1 "f(a). g(b)." "f(a). g(b)." = Some (LOk, l, [Val RFalse]) /\ reports_error l = false /\ l <> LOk.
Proof. exists (LErr CNone). split; [vm_compute; reflexivity|]. split; [reflexivity|discriminate]. Qed.

(** C44 *)
Lemma names_clash :
  ask 1 "p(f(A))." "p(X), p(A)" = Some (LOk, LOk, [Val (RAnswer [("A", "f(A)"); ("X", "f(A)")])]) /\
  ask 1 "p(f(X,X))." "p(Y)" = Some (LOk, LOk, [Val (RAnswer [("Y", "f(X2,X)")])]).
Proof. split; vm_compute; reflexivity. Qed.

(** C02: registers that were never written are read *)
Lemma unwritten_ub : ask 1 "p(X) :- q(A), r(X). q(b). r(a)." "p(a)" = Some (LOk, LOk, [Ub UTag]).
Proof. vm_compute. reflexivity. Qed.
Lemma unwritten_no : ask 1 "p(X) :- q(f(A)), r(X). q(f(b)). r(a)." "p(a)" = Some (LOk, LOk, [Val RFalse]).
Proof. vm_compute. reflexivity. Qed.
