(** Reading a text piece by piece: clauses end at the first dot, so the text after it does not matter. *)
From Verif Require Import Base Machine Compiler Parser ParserFacts.
Open Scope string_scope.
Open Scope list_scope.

Notation dot := "."%char.
Fixpoint nodot (s : string) : Prop := match s with EmptyString => True | String c s' => c <> dot /\ nodot s' end.
(** [u] followed by a dot and [t] *)
Notation "u '.' t" := (String.append u (String dot t)) (at level 60, right associativity, only printing).
Definition dt (u t : string) : string := String.append u (String dot t).

Lemma app_assoc_s a : forall b c, String.append (String.append a b) c = String.append a (String.append b c).
Proof. induction a as [|x a IH]; intros; cbn; [reflexivity|]. now rewrite IH. Qed.
Lemma app_nil_s a : String.append a "" = a.
Proof. induction a as [|x a IH]; cbn; [reflexivity|]. now rewrite IH. Qed.
Lemma app_len a b : slen (String.append a b) = slen a + slen b.
Proof. induction a as [|x a IH]; cbn; [reflexivity|]. now rewrite IH. Qed.
Lemma dt_len u t : slen (dt u t) = slen u + S (slen t).
Proof. unfold dt. now rewrite app_len. Qed.
Lemma dt_app u t t' : String.append (dt u t) t' = dt u (String.append t t').
Proof. unfold dt. now rewrite app_assoc_s. Qed.

Lemma skip_dt u t : skip (dt u t) = dt (skip u) t.
Proof. unfold dt. induction u as [|c u IH]; cbn [skip String.append]; [reflexivity|]. destruct (is_space c); [exact IH|reflexivity]. Qed.
Lemma skip_nodot u : nodot u -> nodot (skip u).
Proof. induction u as [|c u IH]; cbn [skip nodot]; [auto|]. intros [A B]. destruct (is_space c); cbn; auto. Qed.

Lemma strip_dt w : nodot w -> forall u, nodot u -> (exists u', nodot u' /\ slen u = slen w + slen u' /\ forall t, strip w (dt u t) = Some (dt u' t)) \/
  (forall t, strip w (dt u t) = None).
Proof.
  induction w as [|c w IH]; intros Nw u Nu.
  - left. exists u. auto.
  - destruct Nw as [Nc Nw]. destruct u as [|d u].
    + right. intros t. cbn. destruct (Ascii.eqb_spec c dot); [contradiction|reflexivity].
    + destruct Nu as [Nd Nu]. destruct (Ascii.eqb c d) eqn:E.
      * destruct (IH Nw u Nu) as [(u' & A & B & K)|K].
        -- left. exists u'. split; [exact A|]. split; [cbn; lia|]. intros t. cbn. rewrite E. apply K.
        -- right. intros t. cbn. rewrite E. apply K.
      * right. intros t. cbn. now rewrite E.
Qed.
Lemma take_dt f : f dot = false -> forall u, nodot u -> exists a u', nodot u' /\ slen u = slen a + slen u' /\ forall t, take f (dt u t) = (a, dt u' t).
Proof.
  intros Hf. induction u as [|c u IH]; intros Nu.
  - exists "", "". split; [exact I|]. split; [reflexivity|]. intros t. cbn. now rewrite Hf.
  - destruct Nu as [Nc Nu]. destruct (f c) eqn:E.
    + destruct (IH Nu) as (a & u' & A & B & K). exists (String c a), u'. split; [exact A|]. split; [cbn; lia|]. intros t. cbn. rewrite E.
      fold (dt u t). rewrite K. reflexivity.
    + exists "", (String c u). split; [split; assumption|]. split; [reflexivity|]. intros t. cbn. now rewrite E.
Qed.

(** the parsers of a family behave alike whatever follows the dot *)
Definition fam (A : Type) := nat -> string -> pres A.
Definition dst {A} (b L : nat) (P : fam A) : Prop := forall u, nodot u -> slen u < L ->
  (exists a u', nodot u' /\ slen u' + b <= slen u /\ forall n t, slen u + S (slen t) < n -> P n (dt u t) = POk a (dt u' t)) \/
  (forall n t, slen u + S (slen t) < n -> P n (dt u t) = PFail) \/
  (forall n t, slen u + S (slen t) < n -> P n (dt u t) = PThrow).

Lemma dst_le {A} b L L' (P : fam A) : L' <= L -> dst b L P -> dst b L' P.
Proof. intros H K u Nu Lu. apply K; [exact Nu|lia]. Qed.

Ltac dfail := right; left; intros n t Hn.
Ltac dthrow := right; right; intros n t Hn.
Ltac dok := left; eexists; eexists; split; [|split; [|intros n t Hn]].

Lemma lit_dt w u : nodot w -> nodot u -> (exists u', nodot u' /\ slen u' + slen w <= slen u /\ forall t, lit w (dt u t) = POk tt (dt u' t)) \/
  (forall t, lit w (dt u t) = PFail).
Proof.
  intros Nw Nu. unfold lit. pose proof (skip_le u) as L. destruct (strip_dt w Nw (skip u) (skip_nodot _ Nu)) as [(u' & A & B & K)|K].
  - left. exists u'. split; [exact A|]. split; [lia|]. intros t. rewrite skip_dt, K. reflexivity.
  - right. intros t. rewrite skip_dt, K. reflexivity.
Qed.
Lemma idc_dot : is_idc dot = false.
Proof. reflexivity. Qed.
Lemma ident_dst f L : f dot = false -> dst 1 L (fun _ => ident f).
Proof.
  intros Hf u Nu _. unfold ident. pose proof (skip_le u) as Lu. pose proof (skip_nodot _ Nu) as Ns. destruct (skip u) as [|c v] eqn:E.
  - dfail. rewrite skip_dt, E. cbn. now rewrite Hf.
  - destruct Ns as [Nc Ns]. destruct (f c) eqn:Ef.
    + destruct (take_dt is_idc idc_dot v Ns) as (a & u' & A & B & K). dok; [exact A|cbn in Lu; lia|]. rewrite skip_dt, E. cbn. rewrite Ef. fold (dt v t).
      rewrite K. reflexivity.
    + dfail. rewrite skip_dt, E. cbn. now rewrite Ef.
Qed.
Lemma map_dst {A B} b L (f : A -> B) (P : fam A) : dst b L P -> dst b L (fun n s => P n s --> a @ r =>> POk (f a) r).
Proof.
  intros H u Nu Lu. destruct (H u Nu Lu) as [(a & u' & A1 & B1 & K)|[K|K]].
  - dok; [exact A1|exact B1|]. rewrite K by lia. reflexivity.
  - dfail. now rewrite K by lia.
  - dthrow. now rewrite K by lia.
Qed.
Lemma constant_dst L : dst 1 L (fun _ => p_constant).
Proof. apply (map_dst 1 L NCon), ident_dst. reflexivity. Qed.
Lemma variable_dst L : dst 1 L (fun _ => p_variable).
Proof. apply (map_dst 1 L NVar), ident_dst. reflexivity. Qed.
Lemma number_dst L : dst 1 L (fun _ => p_number).
Proof.
  intros u Nu _. unfold p_number. pose proof (skip_le u) as Lu. pose proof (skip_nodot _ Nu) as Ns.
  assert (K : forall sign v, nodot v -> slen v <= slen u ->
    (exists a u', nodot u' /\ slen u' + 1 <= slen u /\ forall t, (let '(ds, r) := take is_digit (dt v t) in match ds with EmptyString => PFail | _ => POk (NInt (sign ++ ds)%string) r end) = POk a (dt u' t)) \/
    (forall t, (let '(ds, r) := take is_digit (dt v t) in match ds with EmptyString => PFail | _ => POk (NInt (sign ++ ds)%string) r end) = PFail)).
  { intros sign v Nv Lv. destruct (take_dt is_digit eq_refl v Nv) as (a & u' & A & B & K). destruct a as [|c a].
    - right. intros t. now rewrite K.
    - left. eexists _, u'. split; [exact A|]. split; [cbn in B; lia|]. intros t. rewrite K. reflexivity. }
  destruct (skip u) as [|c v] eqn:E.
  - destruct (K "" "" I (Nat.le_0_l _)) as [(a & u' & A & B & H)|H].
    + dok; [exact A|exact B|]. rewrite skip_dt, E. exact (H t).
    + dfail. rewrite skip_dt, E. exact (H t).
  - destruct (Ascii.eqb c "-") eqn:Ec.
    + destruct (K "-" v) as [(a & u' & A & B & H)|H]; [apply Ns|cbn in Lu; lia| |].
      * dok; [exact A|exact B|]. rewrite skip_dt, E. cbn [dt String.append]. rewrite Ec. exact (H t).
      * dfail. rewrite skip_dt, E. cbn [dt String.append]. rewrite Ec. exact (H t).
    + destruct (K "" (String c v)) as [(a & u' & A & B & H)|H]; [exact Ns|exact Lu| |].
      * dok; [exact A|exact B|]. rewrite skip_dt, E. cbn [dt String.append]. rewrite Ec. exact (H t).
      * dfail. rewrite skip_dt, E. cbn [dt String.append]. rewrite Ec. exact (H t).
Qed.
Lemma alt_dst {A} L (P Q : fam A) : dst 1 L P -> dst 1 L Q -> dst 1 L (fun n s => P n s <|> Q n s).
Proof.
  intros H1 H2 u Nu Lu. destruct (H1 u Nu Lu) as [(a & u' & A1 & B1 & K)|[K|K]].
  - dok; [exact A1|exact B1|]. now rewrite K by lia.
  - destruct (H2 u Nu Lu) as [(a & u' & A1 & B1 & K')|[K'|K']].
    + dok; [exact A1|exact B1|]. rewrite K by lia. rewrite K' by lia. reflexivity.
    + dfail. rewrite K by lia. now rewrite K' by lia.
    + dthrow. rewrite K by lia. now rewrite K' by lia.
  - dthrow. now rewrite K by lia.
Qed.

(** run one sub-parser *)
Ltac drun H u := let a := fresh "a" in let u' := fresh "u" in let N := fresh "N" in let B := fresh "B" in let K := fresh "K" in
  destruct (H u) as [(a & u' & N & B & K)|[K|K]]; [assumption|lia|..].
Ltac dlit w u := let u' := fresh "u" in let N := fresh "N" in let B := fresh "B" in let K := fresh "K" in
  destruct (lit_dt w u) as [(u' & N & B & K)|K]; [cbn; repeat split; discriminate|assumption|cbn [String.length] in B|].
Ltac drw := repeat match goal with K : forall t, lit _ _ = _ |- _ => rewrite K; clear K; cbv beta iota
                                 | K : forall n t, _ < n -> _ = _ |- _ => cbv beta in K; first [rewrite K by lia | match goal with n : nat, H : _ < n |- _ => rewrite (K n) by lia end]; clear K; cbv beta iota end; try reflexivity.
Ltac dend := first [ left; eexists; eexists; split; [|split; [|intros n t Hn; solve [drw]]]; [assumption|lia]
                   | right; left; intros n t Hn; solve [drw] | right; right; intros n t Hn; solve [drw] ].

Lemma sep_rest_dst {A} L (P : fam A) : dst 1 L P -> forall u, nodot u -> slen u < L ->
  (exists a u', nodot u' /\ slen u' <= slen u /\ forall n k t, slen u + S (slen t) < n -> slen u < k -> sep_rest k (P n) (dt u t) = POk a (dt u' t)) \/
  (forall n k t, slen u + S (slen t) < n -> slen u < k -> sep_rest k (P n) (dt u t) = PThrow).
Proof.
  intros H u. remember (slen u) as m eqn:Em. assert (Lm : slen u <= m) by lia. clear Em. revert u Lm.
  induction m as [m IH] using lt_wf_ind. intros u Lm Nu Lu.
  destruct (lit_dt "," u) as [(u1 & N1 & B1 & K1)|K1]; [cbn; repeat split; discriminate|assumption| |].
  - cbn in B1. drun H u1.
    + destruct (IH (slen u0)) with (u := u0) as [(l & u2 & N2 & B2 & K2)|K2]; [lia|lia|assumption|lia| |].
      * left. exists (a :: l), u2. split; [assumption|]. split; [lia|]. intros n k t Hn Hk. destruct k as [|k]; [lia|]. cbn [sep_rest].
        rewrite K1. rewrite K by lia. rewrite K2 by lia. reflexivity.
      * right. intros n k t Hn Hk. destruct k as [|k]; [lia|]. cbn [sep_rest]. rewrite K1. rewrite K by lia. rewrite K2 by lia. reflexivity.
    + left. exists [], u. split; [assumption|]. split; [lia|]. intros n k t Hn Hk. destruct k as [|k]; [lia|]. cbn [sep_rest]. rewrite K1. rewrite K by lia. reflexivity.
    + right. intros n k t Hn Hk. destruct k as [|k]; [lia|]. cbn [sep_rest]. rewrite K1. rewrite K by lia. reflexivity.
  - left. exists [], u. split; [assumption|]. split; [lia|]. intros n k t Hn Hk. destruct k as [|k]; [lia|]. cbn [sep_rest]. rewrite K1. reflexivity.
Qed.
Lemma sep_dst {A} L (P : fam A) : dst 1 L P -> dst 1 L (fun n => sep (P n)).
Proof.
  intros H u Nu Lu. unfold sep. drun H u; [|dend..].
  destruct (sep_rest_dst L P H u0) as [(l & u1 & N1 & B1 & K1)|K1]; [assumption|lia| |].
  - dok; [exact N1|lia|]. rewrite K by lia. rewrite K1 by (rewrite ?dt_len; lia). reflexivity.
  - dthrow. rewrite K by lia. rewrite K1 by (rewrite ?dt_len; lia). reflexivity.
Qed.
Lemma op_dt ops : Forall nodot ops -> (forall o, In o ops -> 0 < slen o) -> forall u, nodot u ->
  (exists o u', nodot u' /\ slen u' < slen u /\ forall t, p_op ops (dt u t) = POk o (dt u' t)) \/ (forall t, p_op ops (dt u t) = PFail).
Proof.
  intros F HO u Nu. induction F as [|o ops Ho F IH]; [right; reflexivity|]. cbn [p_op].
  destruct (lit_dt o u Ho Nu) as [(u' & N & B & K)|K].
  - left. exists o, u'. split; [exact N|]. split; [|intros t; now rewrite K]. specialize (HO o (or_introl eq_refl)). lia.
  - destruct IH as [(o' & u' & N & B & K')|K']; [intros x Hx; apply HO; now right| |].
    + left. exists o', u'. split; [exact N|]. split; [exact B|]. intros t. rewrite K. apply K'.
    + right. intros t. rewrite K. apply K'.
Qed.
Lemma chain_dst L ops (P : fam node) : Forall nodot ops -> (forall o, In o ops -> 0 < slen o) -> dst 1 L P -> forall u, nodot u -> slen u < L ->
  (exists a u', nodot u' /\ slen u' <= slen u /\ forall n k t, slen u + S (slen t) < n -> slen u < k -> chain k ops (P n) (dt u t) = POk a (dt u' t)) \/
  (forall n k t, slen u + S (slen t) < n -> slen u < k -> chain k ops (P n) (dt u t) = PThrow).
Proof.
  intros F HO H u. remember (slen u) as m eqn:Em. assert (Lm : slen u <= m) by lia. clear Em. revert u Lm.
  induction m as [m IH] using lt_wf_ind. intros u Lm Nu Lu.
  destruct (op_dt ops F HO u Nu) as [(o & u1 & N1 & B1 & K1)|K1].
  - drun H u1.
    + destruct (IH (slen u0)) with (u := u0) as [(l & u2 & N2 & B2 & K2)|K2]; [lia|lia|assumption|lia| |].
      * left. exists ((o, a) :: l), u2. split; [assumption|]. split; [lia|]. intros n k t Hn Hk. destruct k as [|k]; [lia|]. cbn [chain].
        rewrite K1. rewrite K by lia. rewrite K2 by lia. reflexivity.
      * right. intros n k t Hn Hk. destruct k as [|k]; [lia|]. cbn [chain]. rewrite K1. rewrite K by lia. rewrite K2 by lia. reflexivity.
    + right. intros n k t Hn Hk. destruct k as [|k]; [lia|]. cbn [chain]. rewrite K1. rewrite K by lia. reflexivity.
    + right. intros n k t Hn Hk. destruct k as [|k]; [lia|]. cbn [chain]. rewrite K1. rewrite K by lia. reflexivity.
  - left. exists [], u. split; [assumption|]. split; [lia|]. intros n k t Hn Hk. destruct k as [|k]; [lia|]. cbn [chain]. rewrite K1. reflexivity.
Qed.
Lemma chained_dst {B} L ops (P : fam node) (Q : fam node) (f : node -> list (string * node) -> B) : Forall nodot ops -> (forall o, In o ops -> 0 < slen o) -> dst 1 L P -> dst 1 L Q ->
  dst 1 L (fun n s => Q n s --> v @ s1 =>> (chain (S (slen s1)) ops (P n) s1 --> l @ s2 =>> POk (f v l) s2)).
Proof.
  intros F HO HP HQ u Nu Lu. drun HQ u; [|dend..].
  destruct (chain_dst L ops P F HO HP u0) as [(l & u1 & N1 & B1 & K1)|K1]; [assumption|lia| |].
  - dok; [exact N1|lia|]. rewrite K by lia. rewrite K1 by (rewrite ?dt_len; lia). reflexivity.
  - dthrow. rewrite K by lia. rewrite K1 by (rewrite ?dt_len; lia). reflexivity.
Qed.

(** one level of nesting; [prv P] is the family below *)
Definition prv {A} (P : fam A) : fam A := fun n => P (n - 1).
Lemma value_dst L (P : fam node) : dst 1 L P -> dst 1 (S L) (fun n => p_value (prv P n)).
Proof.
  intros H. unfold p_value. apply (alt_dst (S L) (fun _ => p_variable) _ (variable_dst _)). apply (alt_dst (S L) (fun _ => p_number) _ (number_dst _)).
  intros u Nu Lu. unfold prv. dlit "(" u; [|dend]. drun H u0; [|dend..]. dlit ")" u1; dend.
Qed.
Lemma power_dst L (P : fam node) : dst 1 L P -> dst 1 (S L) (fun n => p_power (prv P n)).
Proof.
  intros H. apply value_dst in H. intros u Nu Lu. unfold p_power. drun H u; [|dend..]. dlit "^" u0; [|dend]. drun H u1; dend.
Qed.
Lemma product_dst L (P : fam node) : dst 1 L P -> dst 1 (S L) (fun n => p_product (prv P n)).
Proof.
  intros H. apply power_dst in H. unfold p_product. apply (chained_dst (S L) ["*"; "//"] _ _ chained_node); [| |exact H|exact H].
  - repeat constructor; discriminate.
  - intros o [<-|[<-|[]]]; cbn; lia.
Qed.
Lemma expr_dst L (P : fam node) : dst 1 L P -> dst 1 (S L) (fun n => p_expr_of (prv P n)).
Proof.
  intros H. apply product_dst in H. unfold p_expr_of. apply (chained_dst (S L) ["+"; "-"] _ _ chained_node); [| |exact H|exact H].
  - repeat constructor; discriminate.
  - intros o [<-|[<-|[]]]; cbn; lia.
Qed.
Lemma list_dst L (E T : fam node) : dst 1 L E -> dst 1 L T -> dst 1 (S L) (fun n => p_list_of (prv E n) (prv T n)).
Proof.
  intros He Ht. apply sep_dst in He. unfold p_list_of.
  apply (alt_dst (S L) (fun n s => lit "[" s --> _ @ s1 =>> (lit "]" s1 --> _ @ s2 =>> POk nil_node s2))).
  { intros u Nu Lu. dlit "[" u; [|dend]. dlit "]" u0; dend. }
  apply (alt_dst (S L) (fun n s => lit "[" s --> _ @ s1 =>> (sep (prv E n) s1 --> l @ s2 =>> (lit "]" s2 --> _ @ s3 =>> POk (list_node l nil_node) s3)))).
  { intros u Nu Lu. unfold prv. dlit "[" u; [|dend]. drun He u0; [|dend..]. dlit "]" u1; dend. }
  pose proof (alt_dst L _ _ (variable_dst L) Ht) as Hv. cbv beta in Hv.
  intros u Nu Lu. unfold prv. dlit "[" u; [|dend]. drun He u0; [|dend..]. dlit "|" u1; [|dend]. drun Hv u2; [|dend..]. dlit "]" u3; dend.
Qed.
Lemma functor_dst L (E : fam node) : dst 1 L E -> dst 1 (S L) (fun n => p_functor_of (prv E n)).
Proof.
  intros He. apply sep_dst in He. intros u Nu Lu. unfold p_functor_of, prv. pose proof (ident_dst is_lower (S L) eq_refl) as I.
  drun I u; [cbv beta in K|dend..]. destruct (strip_dt "(" ltac:(cbn; repeat split; discriminate) u0 N) as [(u1 & N1 & B1 & K1)|K1].
  - cbn in B1. drun He u1.
    + dlit ")" u2.
      * dok; [exact N2|lia|]. rewrite (K n) by lia. cbv beta iota. rewrite K1. rewrite K0 by lia. cbv beta iota. rewrite K2. reflexivity.
      * dthrow. rewrite (K n) by lia. cbv beta iota. rewrite K1. rewrite K0 by lia. cbv beta iota. rewrite K2. reflexivity.
    + dthrow. rewrite (K n) by lia. cbv beta iota. rewrite K1. rewrite K0 by lia. reflexivity.
    + dthrow. rewrite (K n) by lia. cbv beta iota. rewrite K1. rewrite K0 by lia. reflexivity.
  - dfail. rewrite (K n) by lia. cbv beta iota. rewrite K1. reflexivity.
Qed.
Lemma rec_dst L : dst 1 L (fun n => fst (fst (p_rec n))) /\ dst 1 L (fun n => snd (fst (p_rec n))) /\ dst 1 L (fun n => snd (p_rec n)).
Proof.
  induction L as [|L (He & Ht & Hx)]; [repeat split; intros u _ Lu; lia|].
  assert (Ext : forall (A : Type) (P Q : fam A), (forall n, P (S n) = Q (S n)) -> dst 1 (S L) Q -> dst 1 (S L) P).
  { intros A P Q E H u Nu Lu. destruct (H u Nu Lu) as [(a & u' & A1 & B1 & K)|[K|K]].
    - dok; [exact A1|exact B1|]. destruct n as [|n]; [lia|]. rewrite E. apply K. lia.
    - dfail. destruct n as [|n]; [lia|]. rewrite E. apply K. lia.
    - dthrow. destruct n as [|n]; [lia|]. rewrite E. apply K. lia. }
  assert (X : dst 1 (S L) (fun n => p_expr_of (prv (fun n => snd (p_rec n)) n))) by now apply expr_dst.
  assert (T : dst 1 (S L) (fun n => p_list_of (prv (fun n => fst (fst (p_rec n))) n) (prv (fun n => snd (fst (p_rec n))) n))) by now apply list_dst.
  split; [|split].
  - pose proof (alt_dst (S L) _ _ (functor_dst L _ He) (alt_dst (S L) _ _ (constant_dst (S L)) (alt_dst (S L) _ _ T X))) as K.
    eapply Ext; [|exact K].
    intros n. unfold prv. rewrite Nat.sub_succ, Nat.sub_0_r. cbn [p_rec]. destruct (p_rec n) as [[e l] x]. reflexivity.
  - eapply Ext; [|exact T]. intros n. unfold prv. rewrite Nat.sub_succ, Nat.sub_0_r. cbn [p_rec]. destruct (p_rec n) as [[e l] x]. reflexivity.
  - eapply Ext; [|exact X]. intros n. unfold prv. rewrite Nat.sub_succ, Nat.sub_0_r. cbn [p_rec]. destruct (p_rec n) as [[e l] x]. reflexivity.
Qed.

Lemma p_elem_dst L : dst 1 L p_elem.
Proof. apply (rec_dst L). Qed.
Lemma p_expr_dst L : dst 1 L p_expr.
Proof. apply (rec_dst L). Qed.
Lemma p_functor_dst L : dst 1 L p_functor.
Proof.
  apply (dst_le 1 (S L)); [lia|]. pose proof (functor_dst L (fun n => p_elem (S n))) as H. cbv beta in H.
  intros u Nu Lu. destruct H with (u := u) as [(a & u' & A1 & B1 & K)|[K|K]]; [|exact Nu|exact Lu|..].
  - intros v Nv Lv. destruct (p_elem_dst (S L) v Nv) as [(a & u' & A1 & B1 & K)|[K|K]]; [lia|..].
    + dok; [exact A1|exact B1|]. apply K. lia.
    + dfail. apply K. lia.
    + dthrow. apply K. lia.
  - dok; [exact A1|exact B1|]. specialize (K n t Hn). unfold prv in K. replace (S (n - 1)) with n in K by lia. exact K.
  - dfail. specialize (K n t Hn). unfold prv in K. replace (S (n - 1)) with n in K by lia. exact K.
  - dthrow. specialize (K n t Hn). unfold prv in K. replace (S (n - 1)) with n in K by lia. exact K.
Qed.
Lemma binary_dst L (P Q : fam node) op : nodot op -> dst 1 L P -> dst 1 L Q -> dst 1 L (fun n => p_binary (P n) (Q n) op).
Proof.
  intros No HP HQ u Nu Lu. unfold p_binary. drun HP u; [|dend..].
  destruct (lit_dt op u0 No N) as [(u1 & N1 & B1 & K1)|K1]; [|dend]. drun HQ u1; dend.
Qed.
Lemma p_atom_dst L : dst 1 L p_atom.
Proof.
  pose proof (p_elem_dst L) as E. pose proof (p_expr_dst L) as X.
  exact (alt_dst L _ _ (binary_dst L _ _ "==" ltac:(cbn; repeat split; discriminate) E E)
        (alt_dst L _ _ (binary_dst L _ _ "\==" ltac:(cbn; repeat split; discriminate) E E)
        (alt_dst L _ _ (binary_dst L _ _ "is" ltac:(cbn; repeat split; discriminate) E X)
        (alt_dst L _ _ (p_functor_dst L) (constant_dst L))))).
Qed.

(** the dot itself *)
Lemma lit_dot u : nodot u -> (skip u = "" /\ forall t, lit "." (dt u t) = POk tt t) \/ (skip u <> "" /\ forall t, lit "." (dt u t) = PFail).
Proof.
  intros Nu. unfold lit. pose proof (skip_nodot _ Nu) as Ns. destruct (skip u) as [|c v] eqn:E.
  - left. split; [reflexivity|]. intros t. rewrite skip_dt, E. reflexivity.
  - right. split; [discriminate|]. intros t. rewrite skip_dt, E. destruct Ns as [Nc _]. cbn [dt String.append strip].
    destruct (Ascii.eqb_spec "." c) as [<-|]; [now elim Nc|reflexivity].
Qed.
Lemma clause_dt u : nodot u ->
  (exists c, forall n t, slen u + S (slen t) < n -> p_clause n (dt u t) = POk c t) \/
  (forall n t, slen u + S (slen t) < n -> p_clause n (dt u t) = PFail) \/
  (forall n t, slen u + S (slen t) < n -> p_clause n (dt u t) = PThrow).
Proof.
  intros Nu. pose proof (alt_dst (S (slen u)) _ _ (p_functor_dst _) (constant_dst _)) as H. cbv beta in H.
  pose proof (sep_dst _ _ (p_atom_dst (S (slen u)))) as S0. unfold p_clause. drun H u; [|dend..].
  dlit ":-" u0.
  - drun S0 u1.
    + destruct (lit_dot u2 N1) as [[_ K2]|[_ K2]].
      * left. eexists. intros n t Hn. drw.
      * dend.
    + destruct (lit_dot u0 N) as [[_ K2]|[_ K2]].
      * left. eexists. intros n t Hn. drw.
      * dend.
    + dend.
  - destruct (lit_dot u0 N) as [[_ K2]|[_ K2]].
    + left. eexists. intros n t Hn. drw.
    + dend.
Qed.

(** --- a text without dot --- *)
Definition pnd {A} (p : string -> pres A) : Prop := forall s a r, nodot s -> p s = POk a r -> nodot r.
Lemma strip_nd w : forall s r, nodot s -> strip w s = Some r -> nodot r.
Proof.
  induction w as [|c w IH]; intros s r N E; cbn in E; [injection E as <-; exact N|]. destruct s as [|d s]; [discriminate|].
  destruct (Ascii.eqb c d); [|discriminate]. apply (IH s r); [apply N|exact E].
Qed.
Lemma lit_nd w : pnd (lit w).
Proof.
  intros s a r N E. unfold lit in E. destruct (strip w (skip s)) as [x|] eqn:Es; [|discriminate]. injection E as _ <-.
  eapply strip_nd; [|exact Es]. now apply skip_nodot.
Qed.
Lemma take_nd f s : forall a r, nodot s -> take f s = (a, r) -> nodot r.
Proof.
  induction s as [|c s IH]; intros a r N E; cbn in E; [injection E as _ <-; exact I|]. destruct (f c).
  - destruct (take f s) as [a' r'] eqn:Et. injection E as _ <-. apply (IH a' r'); [apply N|reflexivity].
  - injection E as _ <-. exact N.
Qed.
Lemma ident_nd f : pnd (ident f).
Proof.
  intros s a r N E. unfold ident in E. apply skip_nodot in N. destruct (skip s) as [|c s']; [discriminate|]. destruct (f c); [|discriminate].
  destruct (take is_idc s') as [x y] eqn:Et. injection E as _ <-. eapply take_nd; [|exact Et]. apply N.
Qed.
(** invert a success one step at a time *)
Ltac pinv E := repeat match type of E with
  | match ?m with POk _ _ => _ | PFail => _ | PThrow => _ | PFuel => _ end = _ => let F := fresh "F" in destruct m eqn:F; try discriminate E
  | POk _ _ = POk _ _ => injection E as E; subst
  end.
Lemma map_nd {A B} (f : A -> B) p : pnd p -> pnd (fun s => p s --> a @ r =>> POk (f a) r).
Proof. intros H s a r N E. destruct (p s) as [x y| | |] eqn:F; try discriminate E. injection E as _ <-. exact (H _ _ _ N F). Qed.
Lemma constant_nd : pnd p_constant. Proof. apply map_nd, ident_nd. Qed.
Lemma variable_nd : pnd p_variable. Proof. apply map_nd, ident_nd. Qed.
Lemma number_nd : pnd p_number.
Proof.
  intros s a r N E. unfold p_number in E. apply skip_nodot in N.
  assert (K : forall sign s1, nodot s1 -> (let '(ds, r) := take is_digit s1 in match ds with EmptyString => PFail | _ => POk (NInt (sign ++ ds)%string) r end) = POk a r -> nodot r).
  { intros sign s1 N1 E1. destruct (take is_digit s1) as [ds r'] eqn:Et. destruct ds; [discriminate|]. injection E1 as _ <-. eapply take_nd; eauto. }
  destruct (skip s) as [|c s']; [discriminate E|]. destruct (Ascii.eqb c "-"); [exact (K "-" s' (proj2 N) E)|exact (K "" (String c s') N E)].
Qed.
Lemma alt_nd {A} (p q : string -> pres A) : pnd p -> pnd q -> pnd (fun s => p s <|> q s).
Proof. intros Hp Hq s a r N E. destruct (p s) as [x y| | |] eqn:F; try discriminate E; [injection E as _ <-|]; eauto. Qed.
Lemma sep_rest_nd {A} (p : string -> pres A) : pnd p -> forall n, pnd (sep_rest n p).
Proof.
  intros Hp. induction n as [|n IH]; intros s a r N E; cbn in E; [discriminate|]. destruct (lit "," s) as [x y| | |] eqn:F; try (injection E as _ <-; exact N).
  apply (lit_nd _ _ _ _ N) in F. destruct (p y) as [x2 y2| | |] eqn:F2; try discriminate E; [|injection E as _ <-; exact N].
  apply (Hp _ _ _ F) in F2. destruct (sep_rest n p y2) as [x3 y3| | |] eqn:F3; try discriminate E. injection E as _ <-. eapply IH; eauto.
Qed.
Lemma sep_nd {A} (p : string -> pres A) : pnd p -> pnd (sep p).
Proof.
  intros Hp s a r N E. unfold sep in E. destruct (p s) as [x y| | |] eqn:F; try discriminate E. apply (Hp _ _ _ N) in F.
  destruct (sep_rest _ p y) as [x2 y2| | |] eqn:F2; try discriminate E. injection E as _ <-. eapply sep_rest_nd; eauto.
Qed.
Lemma op_nd ops : pnd (p_op ops).
Proof.
  induction ops as [|o ops IH]; intros s a r N E; cbn in E; [discriminate|]. destruct (lit o s) as [x y| | |] eqn:F; [injection E as _ <-; eapply lit_nd; eauto|eauto..].
Qed.
Lemma chain_nd ops (p : parser) : pnd p -> forall n, pnd (chain n ops p).
Proof.
  intros Hp. induction n as [|n IH]; intros s a r N E; cbn in E; [discriminate|]. destruct (p_op ops s) as [x y| | |] eqn:F; try (injection E as _ <-; exact N).
  apply (op_nd _ _ _ _ N) in F. destruct (p y) as [x2 y2| | |] eqn:F2; try discriminate E.
  apply (Hp _ _ _ F) in F2. destruct (chain n ops p y2) as [x3 y3| | |] eqn:F3; try discriminate E. injection E as _ <-. eapply IH; eauto.
Qed.
(** run through a success *)
Ltac nrun := repeat match goal with
  | E : match ?m with POk _ _ => _ | PFail => _ | PThrow => _ | PFuel => _ end = POk _ _ |- _ =>
      let F := fresh "F" in destruct m as [? ?| | |] eqn:F; try discriminate E
  | F : lit _ _ = POk _ _ |- _ => apply lit_nd in F; [|solve [eauto]]
  | E : POk _ _ = POk _ _ |- _ => injection E as E; subst
  end.
Lemma value_nd p : pnd p -> pnd (p_value p).
Proof.
  intros Hp. unfold p_value. apply (alt_nd p_variable _ variable_nd). apply (alt_nd p_number _ number_nd).
  intros s a r N E. nrun. eauto.
Qed.
Lemma power_nd p : pnd p -> pnd (p_power p).
Proof. intros Hp. apply value_nd in Hp. intros s a r N E. unfold p_power in E. nrun; eauto. Qed.
Lemma product_nd p : pnd p -> pnd (p_product p).
Proof.
  intros Hp. apply power_nd in Hp. intros s a r N E. unfold p_product in E. nrun. eapply chain_nd; [exact Hp| |eassumption]. eauto.
Qed.
Lemma expr_nd p : pnd p -> pnd (p_expr_of p).
Proof.
  intros Hp. apply product_nd in Hp. intros s a r N E. unfold p_expr_of in E. nrun. eapply chain_nd; [exact Hp| |eassumption]. eauto.
Qed.
Lemma list_nd e l : pnd e -> pnd l -> pnd (p_list_of e l).
Proof.
  intros He Hl. apply sep_nd in He. pose proof (alt_nd _ _ variable_nd Hl) as Ht. cbv beta in Ht. unfold p_list_of.
  apply (alt_nd (fun s => lit "[" s --> _ @ s1 =>> (lit "]" s1 --> _ @ s2 =>> POk nil_node s2))).
  { intros s a r N E. nrun. eauto. }
  apply (alt_nd (fun s => lit "[" s --> _ @ s1 =>> (sep e s1 --> l @ s2 =>> (lit "]" s2 --> _ @ s3 =>> POk (list_node l nil_node) s3)))).
  { intros s a r N E. destruct (lit "[" s) as [u1 s1| | |] eqn:F1; try discriminate E. apply (lit_nd _ _ _ _ N) in F1.
    destruct (sep e s1) as [u2 s2| | |] eqn:F2; try discriminate E. apply (He _ _ _ F1) in F2.
    destruct (lit "]" s2) as [u3 s3| | |] eqn:F3; try discriminate E. apply (lit_nd _ _ _ _ F2) in F3. injection E as _ <-. exact F3. }
  intros s a r N E. destruct (lit "[" s) as [u1 s1| | |] eqn:F1; try discriminate E. apply (lit_nd _ _ _ _ N) in F1.
  destruct (sep e s1) as [u2 s2| | |] eqn:F2; try discriminate E. apply (He _ _ _ F1) in F2.
  destruct (lit "|" s2) as [u3 s3| | |] eqn:F3; try discriminate E. apply (lit_nd _ _ _ _ F2) in F3.
  destruct (p_variable s3 <|> l s3) as [u4 s4| | |] eqn:F4; try discriminate E. apply (Ht _ _ _ F3) in F4.
  destruct (lit "]" s4) as [u5 s5| | |] eqn:F5; try discriminate E. apply (lit_nd _ _ _ _ F4) in F5. injection E as _ <-. exact F5.
Qed.
Lemma functor_nd e : pnd e -> pnd (p_functor_of e).
Proof.
  intros He. apply sep_nd in He. intros s a r N E. unfold p_functor_of in E.
  destruct (ident is_lower s) as [u1 s1| | |] eqn:F1; try discriminate E. apply (ident_nd _ _ _ _ N) in F1.
  destruct (strip "(" s1) as [s2|] eqn:F2; [|discriminate E]. apply (strip_nd _ _ _ F1) in F2.
  destruct (sep e s2) as [u3 s3| | |] eqn:F3; try discriminate E. apply (He _ _ _ F2) in F3.
  destruct (lit ")" s3) as [u4 s4| | |] eqn:F4; try discriminate E. apply (lit_nd _ _ _ _ F3) in F4. injection E as _ <-. exact F4.
Qed.
Lemma rec_nd n : pnd (fst (fst (p_rec n))) /\ pnd (snd (fst (p_rec n))) /\ pnd (snd (p_rec n)).
Proof.
  induction n as [|n IH]; [repeat split; intros s a r N E; discriminate E|]. cbn [p_rec]. destruct (p_rec n) as [[e l] x]. cbn [fst snd] in *.
  destruct IH as (He & Hl & Hx). split; [|split]; auto using list_nd, expr_nd. unfold p_elem_of.
  exact (alt_nd _ _ (functor_nd _ He) (alt_nd _ _ constant_nd (alt_nd _ _ (list_nd _ _ He Hl) (expr_nd _ Hx)))).
Qed.
Lemma binary_nd p q op : pnd p -> pnd q -> pnd (p_binary p q op).
Proof.
  intros Hp Hq s a r N E. unfold p_binary in E.
  destruct (p s) as [u1 s1| | |] eqn:F1; try discriminate E. apply (Hp _ _ _ N) in F1.
  destruct (lit op s1) as [u2 s2| | |] eqn:F2; try discriminate E. apply (lit_nd _ _ _ _ F1) in F2.
  destruct (q s2) as [u3 s3| | |] eqn:F3; try discriminate E. apply (Hq _ _ _ F2) in F3. injection E as _ <-. exact F3.
Qed.
Lemma p_functor_nd n : pnd (p_functor n).
Proof. apply functor_nd, (rec_nd n). Qed.
Lemma p_atom_nd n : pnd (p_atom n).
Proof.
  destruct (rec_nd n) as (E & _ & X). unfold p_atom.
  exact (alt_nd _ _ (binary_nd _ _ "==" E E) (alt_nd _ _ (binary_nd _ _ "\==" E E) (alt_nd _ _ (binary_nd _ _ "is" E X) (alt_nd _ _ (p_functor_nd n) constant_nd)))).
Qed.
Lemma clause_nodot n s c r : nodot s -> p_clause n s <> POk c r.
Proof.
  intros N E. unfold p_clause in E. destruct (p_functor n s <|> p_constant s) as [h s1| | |] eqn:F1; try discriminate E.
  apply (alt_nd _ _ (p_functor_nd n) constant_nd _ _ _ N) in F1.
  assert (K : forall b s3, nodot s3 -> (lit "." s3 -!> _ @ s4 =>> POk (h :: b) s4) <> POk c r).
  { intros b s3 N3 E3. unfold lit in E3. apply skip_nodot in N3. destruct (skip s3) as [|x y]; [discriminate E3|].
    destruct N3 as [Nx _]. cbn [strip] in E3. destruct (Ascii.eqb_spec "." x) as [<-|]; [now elim Nx|discriminate E3]. }
  destruct (lit ":-" s1 --> _ @ s2 =>> sep (p_atom n) s2) as [b s2| | |] eqn:F2; try discriminate E.
  - destruct (lit ":-" s1) as [u s1'| | |] eqn:F3; try discriminate F2. apply (lit_nd _ _ _ _ F1) in F3.
    apply (sep_nd _ (p_atom_nd n) _ _ _ F3) in F2. exact (K _ _ F2 E).
  - exact (K _ _ F1 E).
Qed.
(** every text with a dot has a first one *)
Lemma first_dot s : nodot s \/ exists u t, nodot u /\ s = dt u t.
Proof.
  induction s as [|c s IH]; [left; exact I|]. destruct (Ascii.ascii_dec c dot) as [->|Hc].
  - right. exists "", s. split; [exact I|reflexivity].
  - destruct IH as [N|(u & t & N & ->)]; [left; split; assumption|right]. exists (String c u), t. split; [split; assumption|reflexivity].
Qed.
Lemma clause_ok_dt n s c r : slen s < n -> p_clause n s = POk c r -> exists u, nodot u /\ s = dt u r /\
  forall m t, slen u + S (slen t) < m -> p_clause m (dt u t) = POk c t.
Proof.
  intros L E. destruct (first_dot s) as [N|(u & t & N & ->)]; [now elim (clause_nodot n s c r N)|].
  exists u. rewrite dt_len in L. destruct (clause_dt u N) as [(c' & K)|[K|K]]; rewrite K in E by lia; try discriminate E.
  injection E as -> ->. auto.
Qed.

(** --- programs one after the other --- *)
Definition blank (s : string) : Prop := skip s = "".
Lemma skip_blank b t : blank b -> skip (String.append b t) = skip t.
Proof.
  unfold blank. induction b as [|c b IH]; cbn [skip String.append]; [reflexivity|]. destruct (is_space c); [exact IH|discriminate].
Qed.
Lemma skip_app s t : ~ blank s -> skip (String.append s t) = String.append (skip s) t.
Proof.
  unfold blank. induction s as [|c s IH]; cbn [skip String.append]; [intros H; now elim H|]. destruct (is_space c); [exact IH|reflexivity].
Qed.
Lemma comment_app s t : match p_comment s with
  | POk _ r => p_comment (String.append s t) = POk tt (String.append r t)
  | PFail => blank s \/ p_comment (String.append s t) = PFail
  | _ => True end.
Proof.
  unfold p_comment. destruct (skip s) as [|c s'] eqn:E; [left; exact E|].
  assert (N : ~ blank s) by (unfold blank; rewrite E; discriminate). rewrite (skip_app s t N), E. cbn [String.append].
  destruct (Ascii.eqb c "%"); [|now right].
  assert (K : forall x a r, take not_newline x = (a, r) -> r <> "" -> take not_newline (String.append x t) = (a, String.append r t)).
  { induction x as [|d x IH]; intros a r Ex Hr; cbn in Ex; [injection Ex as <- <-; now elim Hr|]. cbn [String.append take]. destruct (not_newline d).
    - destruct (take not_newline x) as [a' r'] eqn:Et. injection Ex as <- <-. rewrite (IH _ _ eq_refl Hr). reflexivity.
    - injection Ex as <- <-. reflexivity. }
  destruct (take not_newline s') as [a r] eqn:Et. destruct r as [|d r]; [exact I|]. rewrite (K _ _ _ Et); [reflexivity|discriminate].
Qed.
Lemma comment_blank b t : blank b -> p_comment (String.append b t) = p_comment t.
Proof. intros B. unfold p_comment. now rewrite (skip_blank b t B). Qed.
Lemma lit_blank w b t : blank b -> lit w (String.append b t) = lit w t.
Proof. intros B. unfold lit. now rewrite (skip_blank b t B). Qed.
Lemma ident_blank f b t : blank b -> ident f (String.append b t) = ident f t.
Proof. intros B. unfold ident. now rewrite (skip_blank b t B). Qed.
Lemma clause_blank n b t : blank b -> p_clause n (String.append b t) = p_clause n t.
Proof.
  intros B. assert (E : (p_functor n (String.append b t) <|> p_constant (String.append b t)) = (p_functor n t <|> p_constant t)).
  { unfold p_functor, p_functor_of, p_constant. rewrite (ident_blank is_lower b t B). reflexivity. }
  unfold p_clause. rewrite E. reflexivity.
Qed.
Lemma rule_blank n b t : blank b -> p_rule n (String.append b t) = p_rule n t.
Proof. intros B. unfold p_rule. now rewrite clause_blank. Qed.

(** what is left of two texts is the same but for blanks *)
Definition same_rest {A} (f : A -> A) (x y : pres A) : Prop :=
  match x, y with
  | POk a r, POk a' r' => a = f a' /\ skip r = skip r'
  | PFail, PFail | PThrow, PThrow => True
  | _, _ => False
  end.
Lemma rules_fuel k k' n m s : slen s < k -> slen s < k' -> slen s < n -> slen s < m -> p_rules k n s = p_rules k' m s.
Proof.
  intros H1 H2 H3 H4. destruct (Nat.le_ge_cases n m) as [L|L].
  - now apply p_rules_sim.
  - symmetry. now apply p_rules_sim.
Qed.
Lemma rules_refl k n s : slen s < k -> slen s < n -> same_rest (fun x => x) (p_rules k n s) (p_rules k n s).
Proof. intros H1 H2. destruct (p_rules_sim n n (Nat.le_refl _) k k s H1 H1 H2) as [_ N]. destruct (p_rules k n s); cbn; auto. Qed.
Lemma rules_blank b t k k' n m : blank b -> slen b + slen t < k -> slen t < k' -> slen b + slen t < n -> slen t < m ->
  same_rest (fun x => x) (p_rules k n (String.append b t)) (p_rules k' m t).
Proof.
  intros B H1 H2 H3 H4. destruct k as [|k]; [lia|]. destruct k' as [|k']; [lia|]. cbn [p_rules]. rewrite (comment_blank b t B), (rule_blank n b t B).
  destruct (comment_cases t) as [(r & -> & L)|[->| ->]].
  - rewrite (rules_fuel k k' n m r) by lia. apply rules_refl; lia.
  - assert (E : p_rule n t = p_rule m t).
    { destruct (Nat.le_ge_cases n m) as [L|L]; [apply (p_rule_sim n m L); lia|symmetry; apply (p_rule_sim m n L); lia]. }
    rewrite E. destruct (p_rule_sim m m (Nat.le_refl _) t) as (_ & N & L); [lia|].
    destruct (p_rule m t) as [c r| | |]; cbn; auto.
    + specialize (L c r eq_refl). rewrite (rules_fuel k k' n m r) by lia. pose proof (rules_refl k' m r ltac:(lia) ltac:(lia)) as R.
      destruct (p_rules k' m r); cbn in *; auto.
    + split; [reflexivity|]. apply (skip_blank b t B).
  - exact I.
Qed.
Lemma same_rest_cons {A} (c : A) f x y : same_rest f x y ->
  same_rest (fun l => c :: f l) (x --> l @ s2 =>> POk (c :: l) s2) y.
Proof. destruct x as [a r| | |], y as [a' r'| | |]; cbn; try contradiction; auto. intros [-> E]. auto. Qed.

Lemma rules_app t : forall k n s l r, p_rules k n s = POk l r -> skip r = "" -> slen s < n ->
  forall k1 n1 k2 n2, slen s + slen t < k1 -> slen s + slen t < n1 -> slen t < k2 -> slen t < n2 ->
  same_rest (fun x => l ++ x) (p_rules k1 n1 (String.append s t)) (p_rules k2 n2 t).
Proof.
  induction k as [|k IH]; intros n s l r E Er Ln k1 n1 k2 n2 H1 H2 H3 H4; [discriminate|]. cbn [p_rules] in E.
  pose proof (comment_app s t) as C. destruct (comment_cases s) as [(s1 & K & L)|[K|K]]; rewrite K in C, E; [| |discriminate E].
  - destruct k1 as [|k1]; [lia|]. cbn [p_rules]. rewrite C. apply (IH n s1 l r E Er); lia.
  - destruct (string_dec (skip s) "") as [B|B].
    + assert (p_rule n s = PFail) as Ef.
      { unfold p_rule, p_clause, p_functor, p_functor_of, p_constant, ident. rewrite B. reflexivity. }
      rewrite Ef in E. injection E as <- _. apply (rules_blank s t); auto.
    + destruct C as [C|C]; [contradiction|]. destruct k1 as [|k1]; [lia|]. cbn [p_rules]. rewrite C.
      destruct (p_rule n s) as [c s1| | |] eqn:Ec; try discriminate E.
      * destruct (p_rules k n s1) as [l1 r1| | |] eqn:E1; try discriminate E. injection E as <- ->.
        destruct (p_rule_sim n n (Nat.le_refl _) s Ln) as (_ & _ & L1). specialize (L1 c s1 Ec).
        unfold p_rule in Ec |- *. destruct (p_clause n s) as [c' v| | |] eqn:Ev; try discriminate Ec.
        destruct (clause_ok_dt n s c' v Ln Ev) as (u & Nu & -> & Kc). rewrite dt_len in *. rewrite dt_app, Kc by (rewrite app_len; lia).
        pose proof (comment_app v t) as C2. destruct (comment_cases v) as [(v1 & K2 & L2)|[K2|K2]]; rewrite K2 in C2, Ec; [| |discriminate Ec].
        -- rewrite C2. injection Ec as <- <-. apply (same_rest_cons c'). apply (IH n v1 l1 r E1 Er); lia.
        -- injection Ec as <- <-. destruct C2 as [B2|C2].
           ++ rewrite (comment_blank v t B2).
              assert (l1 = []) as ->.
              { destruct k as [|k0]; [discriminate E1|]. cbn [p_rules] in E1. rewrite K2 in E1.
                unfold p_rule, p_clause, p_functor, p_functor_of, p_constant, ident in E1. unfold blank in B2. rewrite B2 in E1. now injection E1 as <- _. }
              destruct (comment_cases t) as [(t1 & K3 & L3)|[K3|K3]]; rewrite K3.
              ** destruct k2 as [|k2]; [lia|]. cbn [p_rules]. rewrite K3. rewrite (rules_fuel k1 k2 n1 n2 t1) by lia.
                 apply (same_rest_cons c' (fun x => x)). apply rules_refl; lia.
              ** apply (same_rest_cons c' (fun x => x)). apply (rules_blank v t); auto; lia.
              ** destruct k2 as [|k2]; [lia|]. cbn [p_rules]. rewrite K3. exact I.
           ++ rewrite C2. apply (same_rest_cons c'). apply (IH n v l1 r E1 Er); lia.
      * injection E as <- ->. contradiction.
Qed.

(** a text that is accepted can be put before any other *)
Definition after (l : list (list node)) (x : option (cres (list (list node)))) : option (cres (list (list node))) :=
  match x with Some (COk l') => Some (COk (l ++ l')) | y => y end.
Theorem parse_program_app s t l : parse_program s = Some (COk l) -> parse_program (String.append s t) = after l (parse_program t).
Proof.
  intros E. unfold parse_program in E. destruct (p_rules _ _ s) as [l0 r| | |] eqn:Es; try discriminate E.
  destruct (skip r) eqn:Er; [|discriminate E]. injection E as <-.
  pose proof (rules_app t _ _ s l0 r Es Er ltac:(lia) (S (slen (String.append s t))) (S (slen (String.append s t))) (S (slen t)) (S (slen t))) as K.
  rewrite app_len in K. specialize (K ltac:(lia) ltac:(lia) ltac:(lia) ltac:(lia)). rewrite <- app_len in K.
  unfold parse_program. destruct (p_rules _ _ (String.append s t)) as [a1 r1| | |], (p_rules _ _ t) as [a2 r2| | |]; cbn in K; try contradiction; try reflexivity.
  destruct K as [-> ->]. destruct (skip r2); reflexivity.
Qed.

(** blanks, and comments each ended by a newline *)
Fixpoint one_line (s : string) : Prop := match s with EmptyString => True | String c s' => c <> "010"%char /\ one_line s' end.
Inductive gap : string -> Prop :=
| gap_nil : gap ""
| gap_blank c g : is_space c = true -> gap g -> gap (String c g)
| gap_comment a g : one_line a -> gap g -> gap (String "%" (String.append a (String "010" g))).

Lemma newline_eq c : not_newline c = true <-> c <> "010"%char.
Proof.
  unfold not_newline. rewrite negb_true_iff, Nat.eqb_neq. split.
  - intros H ->. apply H. reflexivity.
  - intros H E. apply H. rewrite <- (ascii_nat_embedding c). unfold code in E. rewrite E. reflexivity.
Qed.
Lemma take_line a t : one_line a -> take not_newline (String.append a (String "010" t)) = (a, String "010" t).
Proof.
  induction a as [|c a IH]; [reflexivity|]. intros [N1 N2]. cbn [String.append take]. apply newline_eq in N1. rewrite N1, (IH N2). reflexivity.
Qed.
Lemma parse_gap g : gap g -> parse_program g = Some (COk []).
Proof.
  induction 1 as [|c g Hc H IH|a g Ha H IH]; [reflexivity|..].
  - change (String c g) with (String.append (String c "") g). rewrite (parse_program_app (String c "") g []); [rewrite IH; reflexivity|].
    unfold parse_program. cbn [String.length p_rules]. unfold p_comment. unfold p_rule, p_clause, p_functor, p_functor_of, p_constant, ident. cbn [skip]. rewrite Hc. cbn [skip].
    rewrite Hc. reflexivity.
  - replace (String "%" (String.append a (String "010" g))) with (String.append (String "%" (String.append a (String "010" ""))) g).
    2: cbn [String.append]; rewrite app_assoc_s; reflexivity.
    rewrite (parse_program_app _ g []); [rewrite IH; reflexivity|].
    unfold parse_program. cbn [p_rules]. unfold p_comment at 1. cbn [skip].
    change (is_space "%") with false. change (Ascii.eqb "%" "%") with true. cbv iota. rewrite (take_line a "" Ha). cbv beta iota.
    cbn [String.length]. reflexivity.
Qed.
Theorem gap_ignored s g t l : parse_program s = Some (COk l) -> gap g -> parse_program (String.append s (String.append g t)) = parse_program (String.append s t).
Proof.
  intros E G. rewrite !(parse_program_app s _ l E). rewrite (parse_program_app g t [] (parse_gap g G)).
  destruct (parse_program t) as [[x| |]|]; reflexivity.
Qed.

(** --- the final dot --- *)
Fixpoint blanks (s : string) : Prop := match s with EmptyString => True | String c s' => is_space c = true /\ blanks s' end.
Lemma rev_app s : forall a, rev_string s a = String.append (rev_string s "") a.
Proof.
  induction s as [|c s IH]; intros a; cbn; [reflexivity|]. rewrite (IH (String c a)), (IH (String c "")), app_assoc_s. reflexivity.
Qed.
Lemma rev_string_app s t : rev_string (String.append s t) "" = String.append (rev_string t "") (rev_string s "").
Proof.
  induction s as [|c s IH]; cbn [String.append rev_string]; [now rewrite app_nil_s|]. rewrite (rev_app (String.append s t)), IH, (rev_app s (String c "")).
  now rewrite app_assoc_s.
Qed.
Lemma rev_rev s : rev_string (rev_string s "") "" = s.
Proof. induction s as [|c s IH]; [reflexivity|]. cbn [rev_string]. rewrite (rev_app s), rev_string_app, IH. reflexivity. Qed.
Lemma blanks_app s t : blanks (String.append s t) <-> blanks s /\ blanks t.
Proof. induction s as [|c s IH]; cbn; tauto. Qed.
Lemma blanks_rev s : blanks s -> blanks (rev_string s "").
Proof. induction s as [|c s IH]; [auto|]. intros [A B]. cbn [rev_string]. rewrite rev_app. apply blanks_app. split; [auto|]. cbn. auto. Qed.
Lemma blanks_skip b t : blanks b -> skip (String.append b t) = skip t.
Proof. induction b as [|c b IH]; [reflexivity|]. intros [A B]. cbn. rewrite A. auto. Qed.
Lemma blanks_take b c t : blanks b -> is_space c = false -> take is_space (String.append b (String c t)) = (b, String c t).
Proof.
  intros B Hc. induction b as [|d b IH]; cbn; [now rewrite Hc|]. destruct B as [A B]. rewrite A, (IH B). reflexivity.
Qed.

Lemma append_dot_blank s : blanks s -> append_dot s = s.
Proof.
  intros B. unfold append_dot. pose proof (blanks_skip (rev_string s "") "" (blanks_rev s B)) as E. rewrite app_nil_s in E. rewrite E. reflexivity.
Qed.
Lemma append_dot_last u c b : is_space c = false -> blanks b ->
  append_dot (String.append u (String c b)) = if Ascii.eqb c dot then String.append u (String c b) else String.append u (String c (String dot b)).
Proof.
  intros Hc B. unfold append_dot. assert (E : rev_string (String.append u (String c b)) "" = String.append (rev_string b "") (String c (rev_string u ""))).
  { rewrite rev_string_app. cbn [rev_string]. rewrite (rev_app b (String c "")), app_assoc_s. reflexivity. }
  rewrite E, (blanks_skip _ _ (blanks_rev b B)). cbn [skip]. rewrite Hc. destruct (Ascii.eqb c dot); [reflexivity|].
  rewrite (blanks_take _ _ _ (blanks_rev b B) Hc). cbn [fst]. rewrite rev_rev. cbn [rev_string]. rewrite (rev_app _ (String c "")), rev_rev.
  rewrite app_assoc_s. reflexivity.
Qed.
(** every text is blank or has a last character that is not *)
Lemma last_char s : blanks s \/ exists u c b, s = String.append u (String c b) /\ is_space c = false /\ blanks b.
Proof.
  induction s as [|d s [B|(u & c & b & -> & Hc & B)]]; [left; exact I| |].
  - destruct (is_space d) eqn:E; [left; split; assumption|]. right. exists "", d, s. auto.
  - right. exists (String d u), c, b. auto.
Qed.
Lemma append_dot_twice s : append_dot (append_dot s) = append_dot s.
Proof.
  destruct (last_char s) as [B|(u & c & b & -> & Hc & B)]; [now rewrite !(append_dot_blank s B)|].
  rewrite (append_dot_last u c b Hc B). destruct (Ascii.eqb c dot) eqn:E.
  - rewrite (append_dot_last u c b Hc B), E. reflexivity.
  - replace (String.append u (String c (String dot b))) with (String.append (String.append u (String c "")) (String dot b)) by now rewrite app_assoc_s.
    rewrite (append_dot_last _ dot b eq_refl B). reflexivity.
Qed.
