(** The parser never runs out of fuel, and its result does not depend on the fuel. *)
From Verif Require Import Base Machine Compiler Parser.
Open Scope string_scope.
Open Scope list_scope.

Notation slen := String.length.

Lemma skip_le s : slen (skip s) <= slen s.
Proof. induction s as [|c s IH]; cbn; [lia|]. destruct (is_space c); cbn; lia. Qed.
Lemma strip_len w : forall s r, strip w s = Some r -> slen s = slen w + slen r.
Proof.
  induction w as [|c w IH]; intros s r E; cbn in E; [injection E as ->; reflexivity|].
  destruct s as [|d s]; [discriminate|]. destruct (Ascii.eqb c d); [|discriminate]. cbn. now rewrite (IH _ _ E).
Qed.
Lemma lit_ok w s u r : lit w s = POk u r -> slen w + slen r <= slen s.
Proof.
  unfold lit. destruct (strip w (skip s)) as [x|] eqn:E; [|discriminate]. intros H. injection H as _ <-.
  apply strip_len in E. pose proof (skip_le s). lia.
Qed.
Lemma lit_cases w s : (exists r, lit w s = POk tt r /\ slen w + slen r <= slen s) \/ lit w s = PFail.
Proof.
  destruct (lit w s) as [[] r| | |] eqn:E; [left; exists r; split; [reflexivity|now apply lit_ok in E]|auto|..];
    unfold lit in E; destruct (strip w (skip s)); discriminate.
Qed.
Lemma take_len f s : forall a r, take f s = (a, r) -> slen s = slen a + slen r.
Proof.
  induction s as [|c s IH]; cbn; intros a r E; [injection E as <- <-; reflexivity|].
  destruct (f c).
  - destruct (take f s) as [a' r'] eqn:Et. injection E as <- <-. cbn. now rewrite (IH _ _ eq_refl).
  - injection E as <- <-. reflexivity.
Qed.

(** [p] and [q] agree on texts shorter than [k]; neither runs out of fuel; a success takes something *)
Definition sim {A} (k : nat) (p q : string -> pres A) : Prop :=
  forall s, slen s < k -> p s = q s /\ p s <> PFuel /\ forall a r, p s = POk a r -> slen r < slen s.
(** the same, but a success may take nothing *)
Definition sim0 {A} (k : nat) (p q : string -> pres A) : Prop :=
  forall s, slen s < k -> p s = q s /\ p s <> PFuel /\ forall a r, p s = POk a r -> slen r <= slen s.

Lemma sim_le {A} k k' (p q : string -> pres A) : k' <= k -> sim k p q -> sim k' p q.
Proof. intros L H s Hs. apply H. lia. Qed.
Lemma sim_sim0 {A} k (p q : string -> pres A) : sim k p q -> sim0 k p q.
Proof. intros H s Hs. destruct (H s Hs) as (A1 & B & C). split; [exact A1|]. split; [exact B|]. intros a r E. specialize (C a r E). lia. Qed.

Lemma ident_sim k f : sim k (ident f) (ident f).
Proof.
  intros s _. split; [reflexivity|]. unfold ident. pose proof (skip_le s) as L. destruct (skip s) as [|c s']; [split; discriminate|].
  destruct (f c); [|split; discriminate]. destruct (take is_idc s') as [a r] eqn:E. split; [discriminate|].
  intros a' r' H. injection H as <- <-. apply take_len in E. cbn in L. lia.
Qed.
Lemma map_sim {A B} k (f : A -> B) (p q : string -> pres A) : sim k p q ->
  sim k (fun s => p s --> a @ r =>> POk (f a) r) (fun s => q s --> a @ r =>> POk (f a) r).
Proof.
  intros H s Hs. destruct (H s Hs) as (E & N & L). rewrite <- E. split; [reflexivity|].
  destruct (p s) as [a r| | |] eqn:Ep; [|split; [discriminate|discriminate]..|contradiction].
  split; [discriminate|]. intros a' r' H'. injection H' as _ <-. eauto.
Qed.
Lemma constant_sim k : sim k p_constant p_constant.
Proof. apply map_sim, ident_sim. Qed.
Lemma variable_sim k : sim k p_variable p_variable.
Proof. apply map_sim, ident_sim. Qed.
Lemma number_sim k : sim k p_number p_number.
Proof.
  intros s _. split; [reflexivity|]. unfold p_number. pose proof (skip_le s) as L.
  assert (K : forall sign s1, slen s1 <= slen s ->
    (let '(ds, r) := take is_digit s1 in match ds with EmptyString => PFail | _ => POk (NInt (sign ++ ds)%string) r end) <> PFuel /\
    forall a r, (let '(ds, r) := take is_digit s1 in match ds with EmptyString => PFail | _ => POk (NInt (sign ++ ds)%string) r end) = POk a r -> slen r < slen s).
  { intros sign s1 L1. destruct (take is_digit s1) as [ds r] eqn:E. apply take_len in E. destruct ds as [|c ds]; [split; discriminate|].
    split; [discriminate|]. intros a r' H. injection H as _ <-. cbn in E. lia. }
  destruct (skip s) as [|c s']; [apply K; cbn; lia|]. destruct (Ascii.eqb c "-"); apply K; cbn in *; lia.
Qed.

(** --- combinators --- *)
Lemma alt_sim {A} k (p q p' q' : string -> pres A) : sim k p p' -> sim k q q' -> sim k (fun s => p s <|> q s) (fun s => p' s <|> q' s).
Proof.
  intros H1 H2 s Hs. destruct (H1 s Hs) as (E & N & L), (H2 s Hs) as (E' & N' & L'). rewrite <- E, <- E'. split; [reflexivity|].
  destruct (p s) as [a r| | |] eqn:Ep; auto.
Qed.
Lemma sim_step {A} k (p q : string -> pres A) s : sim k p q -> slen s < k ->
  p s = q s /\ ((exists a r, p s = POk a r /\ slen r < slen s) \/ p s = PFail \/ p s = PThrow).
Proof.
  intros H Hs. destruct (H s Hs) as (E & N & L). split; [exact E|]. destruct (p s) as [a r| | |] eqn:Ep; auto.
  - left. exists a, r. split; [reflexivity|now apply (L a r)].
  - contradiction.
Qed.
Lemma sim0_step {A} k (p q : string -> pres A) s : sim0 k p q -> slen s < k ->
  p s = q s /\ ((exists a r, p s = POk a r /\ slen r <= slen s) \/ p s = PFail \/ p s = PThrow).
Proof.
  intros H Hs. destruct (H s Hs) as (E & N & L). split; [exact E|]. destruct (p s) as [a r| | |] eqn:Ep; auto.
  - left. exists a, r. split; [reflexivity|now apply (L a r)].
  - contradiction.
Qed.

Ltac sdone := cbv beta iota; first [ split; [reflexivity|split; [discriminate|let a := fresh in let r := fresh in let H := fresh in intros a r H; first [discriminate H | injection H as <- <-; cbn in *; lia]]] ].
(** run one sub-parser of which [H] is known *)
Ltac sstep H := match type of H with
  | sim _ ?p ?q => match goal with |- context [p ?s] => let E := fresh in let K := fresh in
      destruct (sim_step _ p q s H) as [E [(? & ? & K & ?)|[K|K]]]; [lia|rewrite <- E, K; clear E K; cbv beta iota..] end
  | sim0 _ ?p ?q => match goal with |- context [p ?s] => let E := fresh in let K := fresh in
      destruct (sim0_step _ p q s H) as [E [(? & ? & K & ?)|[K|K]]]; [lia|rewrite <- E, K; clear E K; cbv beta iota..] end
  end.
Ltac slit w := match goal with |- context [lit w ?s] => let K := fresh in let L := fresh in
      destruct (lit_cases w s) as [(? & K & L)|K]; rewrite !K; clear K; [cbn [String.length] in L|]; cbv beta iota end.

Lemma sep_rest_sim {A} k (p q : string -> pres A) : sim k p q -> forall n m s, slen s < k -> slen s < n -> slen s < m ->
  sep_rest n p s = sep_rest m q s /\ sep_rest n p s <> PFuel /\ forall a r, sep_rest n p s = POk a r -> slen r <= slen s.
Proof.
  intros H. induction n as [|n IH]; intros m s Hk Hn Hm; [lia|]. destruct m as [|m]; [lia|]. cbn [sep_rest].
  slit ",". 2: sdone.
  sstep H; try sdone.
  match goal with |- context [sep_rest n p ?s2] => destruct (IH m s2) as (E & N & L'); [lia..|]; rewrite <- E; destruct (sep_rest n p s2) as [a2 r2| | |] eqn:E2 end;
    try sdone.
  - split; [reflexivity|]. split; [discriminate|]. intros a r H'. injection H' as _ <-. specialize (L' _ _ eq_refl). lia.
  - contradiction.
Qed.
Lemma sep_sim {A} k (p q : string -> pres A) : sim k p q -> sim k (sep p) (sep q).
Proof.
  intros H s Hs. unfold sep. sstep H; try sdone.
  match goal with |- context [sep_rest (S (slen ?x)) p ?x] =>
    destruct (sep_rest_sim k p q H (S (slen x)) (S (slen x)) x) as (E & N & L'); [lia..|];
    rewrite <- E; destruct (sep_rest (S (slen x)) p x) as [a2 r2| | |] eqn:E2 end;
    try sdone; [|contradiction].
  split; [reflexivity|]. split; [discriminate|]. intros a r H'. injection H' as _ <-. specialize (L' _ _ eq_refl). lia.
Qed.

Lemma op_cases ops s : (exists o r, p_op ops s = POk o r /\ In o ops /\ slen o + slen r <= slen s) \/ p_op ops s = PFail.
Proof.
  induction ops as [|o ops IH]; cbn; [auto|]. destruct (lit_cases o s) as [(r & K & L)|K]; rewrite K.
  - left. exists o, r. auto.
  - destruct IH as [(o' & r & K' & Hin & L)|K']; rewrite K'; [|auto]. left. exists o', r. auto.
Qed.
Lemma chain_sim k ops (p q : parser) : (forall o, In o ops -> 0 < slen o) -> sim k p q -> forall n m s, slen s < k -> slen s < n -> slen s < m ->
  chain n ops p s = chain m ops q s /\ chain n ops p s <> PFuel /\ forall a r, chain n ops p s = POk a r -> slen r <= slen s.
Proof.
  intros HO H. induction n as [|n IH]; intros m s Hk Hn Hm; [lia|]. destruct m as [|m]; [lia|]. cbn [chain].
  destruct (op_cases ops s) as [(o & r & K & Hin & L)|K]; rewrite K; clear K; [|sdone]. apply HO in Hin.
  sstep H; try sdone.
  match goal with |- context [chain n ops p ?s2] => destruct (IH m s2) as (E & N & L'); [lia..|]; rewrite <- E; destruct (chain n ops p s2) as [a2 r2| | |] eqn:E2 end;
    try sdone.
  - split; [reflexivity|]. split; [discriminate|]. intros a r' H'. injection H' as _ <-. specialize (L' _ _ eq_refl). lia.
  - contradiction.
Qed.
Definition chained (ops : list string) (p : parser) : string -> pres (list (string * node)) := fun s => chain (S (slen s)) ops p s.
Lemma chained_sim k ops (p q : parser) : (forall o, In o ops -> 0 < slen o) -> sim k p q -> sim0 k (chained ops p) (chained ops q).
Proof. intros HO H s Hs. unfold chained. apply (chain_sim k ops p q HO H); lia. Qed.

Lemma value_sim k (p q : parser) : sim k p q -> sim (S k) (p_value p) (p_value q).
Proof.
  intros H. unfold p_value. apply (alt_sim (S k) p_variable _ p_variable _ (variable_sim _)). apply (alt_sim (S k) p_number _ p_number _ (number_sim _)).
  intros s Hs. slit "("; [|sdone]. sstep H; try sdone. slit ")"; sdone.
Qed.
Lemma power_sim k (p q : parser) : sim k p q -> sim (S k) (p_power p) (p_power q).
Proof.
  intros H s Hs. unfold p_power. apply value_sim in H. sstep H; try sdone. slit "^"; try sdone. sstep H; sdone.
Qed.
Lemma product_sim k (p q : parser) : sim k p q -> sim (S k) (p_product p) (p_product q).
Proof.
  intros H. apply power_sim in H. assert (C : sim0 (S k) (chained ["*"; "//"] (p_power p)) (chained ["*"; "//"] (p_power q))).
  { apply chained_sim; [|exact H]. intros o [<-|[<-|[]]]; cbn; lia. }
  intros s Hs. unfold p_product. sstep H; try sdone. fold (chained ["*"; "//"] (p_power p) x0). fold (chained ["*"; "//"] (p_power q) x0).
  sstep C; sdone.
Qed.
Lemma expr_sim k (p q : parser) : sim k p q -> sim (S k) (p_expr_of p) (p_expr_of q).
Proof.
  intros H. apply product_sim in H. assert (C : sim0 (S k) (chained ["+"; "-"] (p_product p)) (chained ["+"; "-"] (p_product q))).
  { apply chained_sim; [|exact H]. intros o [<-|[<-|[]]]; cbn; lia. }
  intros s Hs. unfold p_expr_of. sstep H; try sdone. fold (chained ["+"; "-"] (p_product p) x0). fold (chained ["+"; "-"] (p_product q) x0).
  sstep C; sdone.
Qed.
Lemma list_sim k (e e' l l' : parser) : sim k e e' -> sim k l l' -> sim (S k) (p_list_of e l) (p_list_of e' l').
Proof.
  intros He Hl. apply sep_sim in He. unfold p_list_of.
  apply (alt_sim (S k) (fun s => lit "[" s --> _ @ s1 =>> (lit "]" s1 --> _ @ s2 =>> POk nil_node s2)) _
                       (fun s => lit "[" s --> _ @ s1 =>> (lit "]" s1 --> _ @ s2 =>> POk nil_node s2)) _).
  { intros s Hs. slit "["; [|sdone]. slit "]"; sdone. }
  apply (alt_sim (S k) (fun s => lit "[" s --> _ @ s1 =>> (sep e s1 --> l @ s2 =>> (lit "]" s2 --> _ @ s3 =>> POk (list_node l nil_node) s3))) _
                       (fun s => lit "[" s --> _ @ s1 =>> (sep e' s1 --> l @ s2 =>> (lit "]" s2 --> _ @ s3 =>> POk (list_node l nil_node) s3))) _).
  { intros s Hs. slit "["; [|sdone]. sstep He; try sdone. slit "]"; sdone. }
  pose proof (alt_sim k _ _ _ _ (variable_sim k) Hl) as Ht. cbv beta in Ht.
  intros s Hs. slit "["; [|sdone]. sstep He; try sdone. slit "|"; [|sdone].
  match goal with |- context [p_variable ?x] => destruct (sim_step _ _ _ x Ht) as [E [(? & ? & K & ?)|[K|K]]]; [lia|rewrite <- E, K; clear E K; cbv beta iota..] end;
    try sdone.
  slit "]"; sdone.
Qed.
Lemma functor_sim k (e e' : parser) : sim k e e' -> sim (S k) (p_functor_of e) (p_functor_of e').
Proof.
  intros He. apply sep_sim in He. intros s Hs. unfold p_functor_of. pose proof (ident_sim (S k) is_lower) as I.
  destruct (sim_step _ _ _ s I Hs) as [_ [(nm & s1 & K & L)|[K|K]]]; rewrite K; cbv beta iota; try sdone.
  destruct (strip "(" s1) as [s2|] eqn:Es; [|sdone]. apply strip_len in Es. cbn in Es.
  sstep He; try sdone. slit ")"; sdone.
Qed.
Lemma elem_sim k (e e' l l' x x' : parser) : sim k e e' -> sim k l l' -> sim k x x' -> sim (S k) (p_elem_of e l x) (p_elem_of e' l' x').
Proof.
  intros He Hl Hx. unfold p_elem_of. repeat (apply (alt_sim (S k)); [auto using functor_sim, constant_sim, list_sim, expr_sim|]).
  auto using expr_sim.
Qed.
Lemma rec_sim n : forall m, n <= m -> sim n (fst (fst (p_rec n))) (fst (fst (p_rec m))) /\
  sim n (snd (fst (p_rec n))) (snd (fst (p_rec m))) /\ sim n (snd (p_rec n)) (snd (p_rec m)).
Proof.
  induction n as [|n IH]; intros m L; [repeat split; intros; lia|]. destruct m as [|m]; [lia|].
  specialize (IH m ltac:(lia)). cbn [p_rec]. destruct (p_rec n) as [[e l] x], (p_rec m) as [[e' l'] x']. cbn [fst snd] in *.
  destruct IH as (He & Hl & Hx). split; [|split]; auto using elem_sim, list_sim, expr_sim.
Qed.

Lemma p_elem_sim n m : n <= m -> sim n (p_elem n) (p_elem m).
Proof. intros L. apply (rec_sim n m L). Qed.
Lemma p_expr_sim n m : n <= m -> sim n (p_expr n) (p_expr m).
Proof. intros L. apply (rec_sim n m L). Qed.
Lemma p_functor_sim n m : n <= m -> sim n (p_functor n) (p_functor m).
Proof. intros L. apply (sim_le (S n)); [lia|]. apply functor_sim, p_elem_sim, L. Qed.
Lemma binary_sim k (l l' r r' : parser) op : sim k l l' -> sim k r r' -> sim k (p_binary l r op) (p_binary l' r' op).
Proof.
  intros Hl Hr s Hs. unfold p_binary. sstep Hl; try sdone.
  match goal with |- context [lit op ?s] => destruct (lit_cases op s) as [(? & K & L)|K]; rewrite !K; clear K; cbv beta iota end; [|sdone].
  sstep Hr; sdone.
Qed.
Lemma p_atom_sim n m : n <= m -> sim n (p_atom n) (p_atom m).
Proof.
  intros L. unfold p_atom. repeat (apply (alt_sim n); [auto using binary_sim, p_elem_sim, p_expr_sim, p_functor_sim|]). apply constant_sim.
Qed.
Lemma p_clause_sim n m : n <= m -> sim n (p_clause n) (p_clause m).
Proof.
  intros L s Hs. unfold p_clause. pose proof (alt_sim n _ _ _ _ (p_functor_sim n m L) (constant_sim n)) as Hh. cbv beta in Hh.
  pose proof (sep_sim _ _ _ (p_atom_sim n m L)) as Ha.
  destruct (sim_step _ _ _ s Hh Hs) as [E [(h & s1 & K & L1)|[K|K]]]; rewrite <- E, K; clear E K; cbv beta iota; try sdone.
  slit ":-".
  - sstep Ha; try sdone; slit "."; sdone.
  - slit "."; sdone.
Qed.
Lemma comment_cases s : (exists r, p_comment s = POk tt r /\ slen r < slen s) \/ p_comment s = PFail \/ p_comment s = PThrow.
Proof.
  unfold p_comment. pose proof (skip_le s) as L. destruct (skip s) as [|c s']; [auto|]. destruct (Ascii.eqb c "%"); [|auto].
  destruct (take not_newline s') as [a r] eqn:E. apply take_len in E. destruct r as [|d r]; [auto|]. left. exists r. split; [reflexivity|]. cbn in *. lia.
Qed.
Lemma p_rule_sim n m : n <= m -> sim n (p_rule n) (p_rule m).
Proof.
  intros L s Hs. unfold p_rule. pose proof (p_clause_sim n m L) as Hc. sstep Hc; try sdone.
  match goal with |- context [p_comment ?x] => destruct (comment_cases x) as [(? & K & ?)|[K|K]]; rewrite K; clear K end; cbv beta iota; sdone.
Qed.
Lemma p_rules_sim n m : n <= m -> forall k k' s, slen s < k -> slen s < k' -> slen s < n ->
  p_rules k n s = p_rules k' m s /\ p_rules k n s <> PFuel.
Proof.
  intros L. pose proof (p_rule_sim n m L) as Hr.
  induction k as [|k IH]; intros k' s H1 H2 H3; [lia|]. destruct k' as [|k']; [lia|]. cbn [p_rules].
  destruct (comment_cases s) as [(s1 & K & L1)|[K|K]]; rewrite K; clear K; cbv beta iota.
  - apply IH; lia.
  - sstep Hr; [|split; [reflexivity|discriminate]..].
    match goal with |- context [p_rules k n ?x] => destruct (IH k' x) as [E N]; [lia..|]; rewrite <- E; destruct (p_rules k n x); try contradiction; (split; [reflexivity|discriminate]) end.
  - split; [reflexivity|discriminate].
Qed.

Theorem parse_program_total s : parse_program s <> None.
Proof.
  unfold parse_program. destruct (p_rules_sim (S (slen s)) (S (slen s)) (Nat.le_refl _) (S (slen s)) (S (slen s)) s) as [_ N]; [lia..|].
  destruct (p_rules _ _ s) as [l r| | |]; try discriminate; [|contradiction]. destruct (skip r); discriminate.
Qed.
Theorem parse_query_total s : parse_query s <> None.
Proof.
  unfold parse_query. destruct (sep_sim _ _ _ (p_atom_sim (S (slen s)) (S (slen s)) (Nat.le_refl _)) s) as (_ & N & _); [lia|].
  destruct (sep _ s) as [l r| | |]; try discriminate; [|contradiction].
  destruct (lit_cases "." r) as [(r' & K & _)|K]; rewrite K; [destruct (skip r'); discriminate|discriminate].
Qed.
