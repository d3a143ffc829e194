(** The standard notation of terms is unambiguous: names of their own for variables and constants, brackets and separators. *)
From Coq Require Import Decimal DecimalString.
From Verif Require Import Base Machine Compiler Parser Print Spec Shown Labels.
Open Scope string_scope.
Open Scope list_scope.

(** A term without the identities of its variables: only the names are to be seen. *)
Fixpoint anon (t : tm) : tm :=
  match t with
  | TVar _ nm => TVar 0 nm
  | TCon s => TCon s
  | TInt n => TInt n
  | TFun s l => TFun s (map anon l)
  | TEv s l => TEv s (map anon l)
  end.

Lemma sapp_assoc (a b c : string) : ((a ++ b) ++ c)%string = (a ++ (b ++ c))%string.
Proof. induction a as [|x a IH]; cbn; [reflexivity|]. now rewrite IH. Qed.

(** --- words --- *)
Fixpoint every (p : ascii -> bool) (s : string) : bool := match s with EmptyString => true | String c r => p c && every p r end.
Definition off (p : ascii -> bool) (r : string) : Prop := match r with EmptyString => True | String c _ => p c = false end.
Lemma cut (p : ascii -> bool) s : forall t r1 r2, every p s = true -> every p t = true -> off p r1 -> off p r2 ->
  (s ++ r1 = t ++ r2)%string -> s = t /\ r1 = r2.
Proof.
  induction s as [|c s IH]; intros t r1 r2 S T O1 O2 E; destruct t as [|d t]; cbn in *; auto.
  - subst r1. cbn in O1. rewrite O1 in T. discriminate T.
  - subst r2. cbn in O2. rewrite O2 in S. discriminate S.
  - injection E as -> E. apply andb_true_iff in S, T. destruct (IH t r1 r2) as [-> ->]; auto; [apply S|apply T].
Qed.
Definition wordc (c : ascii) : bool := name_char c || one_of "-=\" c.
Definition digit : ascii -> bool := one_of "0123456789".
(** nonempty, and what it begins with *)
Definition begins (f : ascii -> bool) (s : string) : Prop := match s with EmptyString => False | String c _ => f c = true end.
Lemma every_list p s : every p s = forallb p (list_ascii_of_string s).
Proof. induction s as [|c s IH]; cbn; [reflexivity|]. now rewrite IH. Qed.
Lemma name_word f s : (forall c, f c = true -> name_char c = true) -> name_with f s = true -> every wordc s = true /\ begins f s.
Proof.
  intros K. unfold name_with. destruct s as [|c s]; [discriminate|]. cbn [list_ascii_of_string every begins]. rewrite andb_true_iff. intros [A B]. split; [|exact A].
  unfold wordc at 1. rewrite (K c A). cbn [orb andb]. rewrite every_list. apply forallb_forall. intros x Hx. rewrite forallb_forall in B. unfold wordc. now rewrite (B x Hx).
Qed.
Lemma small_name c : small c = true -> name_char c = true.
Proof. unfold name_char. now intros ->. Qed.
Lemma capital_name c : capital c = true -> name_char c = true.
Proof. unfold name_char. intros ->. now rewrite orb_true_r. Qed.
Lemma uint_every d : every wordc (NilEmpty.string_of_uint d) = true.
Proof. induction d; cbn; auto. Qed.
Lemma uint_every0 d : every wordc (NilZero.string_of_uint d) = true /\ begins digit (NilZero.string_of_uint d).
Proof. destruct d; cbn; split; try reflexivity; apply uint_every. Qed.
Lemma int_word n : every wordc (string_of_Z n) = true /\ begins (fun c => digit c || one_of "-" c) (string_of_Z n).
Proof.
  unfold string_of_Z. destruct (Z.to_int n) as [u|u]; cbn [NilZero.string_of_int]; destruct (uint_every0 u) as [A B].
  - split; [exact A|]. destruct (NilZero.string_of_uint u); [contradiction|]. cbn [begins] in *. now rewrite B.
  - split; [exact A|reflexivity].
Qed.
Lemma fun_word s : functor_name s = true -> s <> "[" -> every wordc s = true /\ begins (fun c => small c || one_of "=\" c) s.
Proof.
  unfold functor_name. rewrite orb_true_iff. intros [K|K] N.
  - destruct (name_word small s small_name K) as [A B]. split; [exact A|]. destruct s; [contradiction|]. cbn [begins] in *. now rewrite B.
  - apply existsb_exists in K. destruct K as (x & Hx & E). apply String.eqb_eq in E. subst x. cbn [In] in Hx. destruct Hx as [<-|[<-|[<-|[]]]]; [now elim N|split; reflexivity|split; reflexivity].
Qed.
Lemma begins_clash f g s : (forall c, f c = true -> g c = true -> False) -> begins f s -> begins g s -> False.
Proof. destruct s; [contradiction|]. cbn. eauto. Qed.
Lemma ascii_test (p : ascii -> bool) : forallb (fun n => p (ascii_of_nat n)) (seq 0 256) = true -> forall c, p c = true.
Proof.
  intros H c. rewrite forallb_forall in H. rewrite <- (ascii_nat_embedding c). apply H. apply in_seq. pose proof (nat_ascii_bounded c). lia.
Qed.
Lemma cap_small c : capital c = true -> small c = true -> False.
Proof. intros A B. pose proof (ascii_test (fun c => negb (capital c && small c)) eq_refl c) as K. cbv beta in K. rewrite A, B in K. discriminate K. Qed.
Lemma int_letter c : digit c || one_of "-" c = true -> capital c || small c = true -> False.
Proof. intros A B. pose proof (ascii_test (fun c => negb ((digit c || one_of "-" c) && (capital c || small c))) eq_refl c) as K. cbv beta in K. rewrite A, B in K. discriminate K. Qed.
Lemma int_inj m n : string_of_Z m = string_of_Z n -> m = n.
Proof. intros E. apply (f_equal lit_val) in E. now rewrite !lit_val_string in E. Qed.

(** --- the notation of a term, and what may follow --- *)
Definition stops (r : string) : Prop := match r with EmptyString => True | String c _ => In c [","; ")"; "]"; "|"; " "]%char end.
Lemma stops_off r : stops r -> off wordc r.
Proof. destruct r as [|c r]; [trivial|]. cbn. intros H. repeat destruct H as [<-|H]; try reflexivity. contradiction. Qed.
Definition listy (t : tm) : Prop := exists l, t = TFun "[" l.
Lemma listy_dec t : listy t \/ ~ listy t.
Proof.
  destruct t as [a s|s|n|s l|s l]; try (right; intros (l' & K); discriminate K). destruct (String.eqb_spec s "[") as [->|N]; [left; eexists; reflexivity|].
  right. intros (l' & K). injection K as K _. contradiction.
Qed.
Lemma tail_plain t : ~ listy t -> show_at true t = ("|" ++ show_at false t)%string.
Proof.
  intros N. destruct t as [a s|s|n|s l|s l]; try reflexivity. assert (Es : (s =? "[") = false) by (apply String.eqb_neq; intros ->; apply N; eexists; reflexivity).
  destruct l as [|x [|y [|z l]]]; cbn; rewrite ?Es; reflexivity.
Qed.
Lemma show_fun s l : s <> "[" -> show_at false (TFun s l) = (s ++ "(" ++ String.concat "," (map (show_at false) l) ++ ")")%string.
Proof. intros N. apply String.eqb_neq in N. destruct l as [|x [|y [|z l]]]; cbn; rewrite ?N; reflexivity. Qed.
Lemma spelled_fun s l : spelled (TFun s l) = true -> forallb spelled l = true /\
  ((s = "[" /\ (l = [] \/ exists x r, l = [x; r])) \/ (s <> "[" /\ functor_name s = true /\ l <> [])).
Proof.
  cbn [spelled]. rewrite andb_true_iff. intros [A B]. split; [exact B|]. destruct (String.eqb_spec s "[") as [->|N].
  - left. split; [reflexivity|]. destruct l as [|x [|y [|z l]]]; try discriminate A; eauto.
  - right. apply andb_true_iff in A. destruct A as [A C]. split; [exact N|]. split; [exact A|]. intros ->. discriminate C.
Qed.
(** how a term begins: a word, a bracket *)
Inductive begin_of : tm -> string -> Prop :=
| bo_var a s : begin_of (TVar a s) s
| bo_con s : begin_of (TCon s) s
| bo_int n : begin_of (TInt n) (string_of_Z n).
Lemma begin_word t w : begin_of t w -> spelled t = true -> every wordc w = true /\ w <> "" /\ show_at false t = w.
Proof.
  intros B Sp. destruct B as [a s|s|n]; cbn [spelled] in Sp.
  - destruct (name_word _ _ capital_name Sp) as [A B]. split; [exact A|]. split; [|reflexivity]. intros ->. exact B.
  - destruct (name_word _ _ small_name Sp) as [A B]. split; [exact A|]. split; [|reflexivity]. intros ->. exact B.
  - destruct (int_word n) as [A B]. split; [exact A|]. split; [|reflexivity]. intros E. rewrite E in B. exact B.
Qed.
Lemma begin_same t t' w : begin_of t w -> begin_of t' w -> spelled t = true -> spelled t' = true -> anon t = anon t'.
Proof.
  intros B B' S S'. destruct B as [a s|s|n]; inversion B' as [a' s' E|s' E|n' E]; subst; cbn [spelled anon] in *; try reflexivity.
  - elim (begins_clash capital small s cap_small); [exact (proj2 (name_word _ _ capital_name S))|exact (proj2 (name_word _ _ small_name S'))].
  - pose proof (proj2 (name_word _ _ capital_name S)) as K. pose proof (proj2 (int_word n')) as K'. destruct (string_of_Z n') as [|c r]; [contradiction|]. elim (int_letter c K'). cbn [begins] in K. now rewrite K.
  - elim (begins_clash capital small s cap_small); [exact (proj2 (name_word _ _ capital_name S'))|exact (proj2 (name_word _ _ small_name S))].
  - pose proof (proj2 (name_word _ _ small_name S)) as K. pose proof (proj2 (int_word n')) as K'. destruct (string_of_Z n') as [|c r]; [contradiction|]. elim (int_letter c K'). cbn [begins] in K. rewrite K. apply orb_true_r.
  - pose proof (proj2 (name_word _ _ capital_name S')) as K. pose proof (proj2 (int_word n)) as K'. destruct (string_of_Z n) as [|c r]; [contradiction|]. elim (int_letter c K'). cbn [begins] in K. now rewrite K.
  - pose proof (proj2 (name_word _ _ small_name S')) as K. pose proof (proj2 (int_word n)) as K'. destruct (string_of_Z n) as [|c r]; [contradiction|]. elim (int_letter c K'). cbn [begins] in K. rewrite K. apply orb_true_r.
  - f_equal. now apply int_inj.
Qed.
(** the four forms *)
Inductive form : tm -> Prop :=
| fo_word t w : begin_of t w -> form t
| fo_fun s l : s <> "[" -> functor_name s = true -> l <> [] -> form (TFun s l)
| fo_nil : form (TFun "[" [])
| fo_cons x r : form (TFun "[" [x; r])
| fo_ev s x y : existsb (String.eqb s) ["^"; "+"; "-"; "*"; "//"] = true -> form (TEv s [x; y]).
Lemma form_of t : spelled t = true -> form t.
Proof.
  intros Sp. destruct t as [a s|s|n|s l|s l].
  - eapply fo_word. constructor.
  - eapply fo_word. constructor.
  - eapply fo_word. constructor.
  - destruct (spelled_fun s l Sp) as [_ [[-> [->|(x & r & ->)]]|(N & F & L)]]; now constructor.
  - cbn [spelled] in Sp. rewrite !andb_true_iff in Sp. destruct Sp as [[A B] _]. destruct l as [|x [|y [|z l]]]; try discriminate B. now constructor.
Qed.
Lemma op_cut s s' r r' : existsb (String.eqb s) ["^"; "+"; "-"; "*"; "//"] = true -> existsb (String.eqb s') ["^"; "+"; "-"; "*"; "//"] = true ->
  (s ++ String " " r = s' ++ String " " r')%string -> s = s' /\ r = r'.
Proof.
  intros A B E. assert (K : forall s, existsb (String.eqb s) ["^"; "+"; "-"; "*"; "//"] = true -> every (fun c => negb (Ascii.eqb c " ")) s = true).
  { intros u Hu. apply existsb_exists in Hu. destruct Hu as (x & Hx & Eu). apply String.eqb_eq in Eu. subst x. cbn [In] in Hx. now repeat destruct Hx as [<-|Hx]. }
  destruct (cut (fun c => negb (Ascii.eqb c " ")) s s' (String " " r) (String " " r') (K s A) (K s' B) eq_refl eq_refl E) as [-> Er]. injection Er as ->. auto.
Qed.
Definition bracket (c : ascii) : bool := one_of "[(" c.
Definition cuts (t : tm) : Prop := forall t' r1 r2, spelled t' = true -> stops r1 -> stops r2 ->
  (show_at false t ++ r1 = show_at false t' ++ r2)%string -> anon t = anon t' /\ r1 = r2.
Definition tcuts (t : tm) : Prop := forall t' r1 r2, spelled t' = true ->
  (show_at true t ++ String "]" r1 = show_at true t' ++ String "]" r2)%string -> anon t = anon t' /\ r1 = r2.
Lemma concat_two x y l : String.concat "," (x :: y :: l) = (x ++ "," ++ String.concat "," (y :: l))%string.
Proof. reflexivity. Qed.
Lemma args_cut l : Forall cuts l -> forall m r1 r2, forallb spelled m = true -> l <> [] -> m <> [] ->
  (String.concat "," (map (show_at false) l) ++ String ")" r1 = String.concat "," (map (show_at false) m) ++ String ")" r2)%string -> map anon l = map anon m /\ r1 = r2.
Proof.
  intros F. assert (Sc : forall r, stops (String ")" r)) by (intros r; cbn; auto). assert (Sm : forall r, stops ("," ++ r)%string) by (intros r; cbn; auto).
  induction F as [|x l Hx F IH]; intros m r1 r2 V Nl Nm E; [contradiction|]. destruct m as [|y m]; [contradiction|]. cbn [forallb] in V. apply andb_true_iff in V. destruct V as [Vy V].
  destruct l as [|x2 l], m as [|y2 m]; cbn [map] in E; rewrite ?concat_two in E; rewrite ?sapp_assoc in E.
  - cbn [String.concat] in E. destruct (Hx y _ _ Vy (Sc r1) (Sc r2) E) as [Ex E']. injection E' as ->. cbn [map]. now rewrite Ex.
  - cbn [String.concat] in E. destruct (Hx y _ _ Vy (Sc r1) (Sm _) E) as [_ E']. discriminate E'.
  - cbn [String.concat] in E. destruct (Hx y _ _ Vy (Sm _) (Sc r2) E) as [_ E']. discriminate E'.
  - destruct (Hx y _ _ Vy (Sm _) (Sm _) E) as [Ex E']. cbn [String.append] in E'. injection E' as E'.
    destruct (IH (y2 :: m) r1 r2 V) as [K ->]; [discriminate|discriminate|exact E'|]. cbn [map] in *. now rewrite Ex, K.
Qed.
Lemma word_not s y r : every wordc s = true -> s <> "" -> (s ++ r = y)%string -> match y with String c _ => wordc c = true | _ => False end.
Proof. intros W N <-. destruct s as [|c s]; [now elim N|]. cbn in *. now apply andb_true_iff in W. Qed.
Lemma fun_ne s : functor_name s = true -> s <> "".
Proof. intros K ->. discriminate K. Qed.
(** no term begins with a bracket that closes *)
Lemma not_closing t r u : spelled t = true -> (show_at false t ++ r <> String "]" u)%string.
Proof.
  intros Sp E. destruct (form_of t Sp) as [t w B|s l N F L| |x l|s x y O].
  - destruct (begin_word t w B Sp) as (W & Nw & Es). rewrite Es in E. apply word_not in E; [discriminate E|exact W|exact Nw].
  - rewrite (show_fun s l N), !sapp_assoc in E. destruct (fun_word s F N) as [W _]. apply word_not in E; [discriminate E|exact W|now apply fun_ne].
  - discriminate E.
  - discriminate E.
  - discriminate E.
Qed.
Lemma term_cut t : spelled t = true -> cuts t /\ tcuts t.
Proof.
  assert (O : forall r, off wordc (String "(" r)) by reflexivity.
  assert (Nw : forall r, ~ stops (String "(" r)) by (intros r K; cbn in K; intuition discriminate).
  assert (T : forall t, spelled t = true -> cuts t -> ~ listy t -> tcuts t).
  { intros u Su Cu Nu t' r1 r2 S' E. rewrite (tail_plain u Nu) in E. cbn [String.append] in E. destruct (listy_dec t') as [(l & ->)|N'].
    - destruct (spelled_fun _ _ S') as [_ [[_ [->|(x & r & ->)]]|(N & _)]]; [discriminate E|discriminate E|now elim N].
    - rewrite (tail_plain t' N') in E. cbn [String.append] in E. injection E as E. destruct (Cu t' (String "]" r1) (String "]" r2) S') as [A B]; [cbn; auto|cbn; auto|exact E|]. injection B as ->. auto. }
  assert (Wo : forall t w, begin_of t w -> spelled t = true -> cuts t /\ tcuts t).
  { intros u w B Su. destruct (begin_word u w B Su) as (W & Ne & Es).
    assert (Cu : cuts u).
    { intros t' r1 r2 S' S1 S2 E. rewrite Es in E. destruct (form_of t' S') as [t' w' B'|s l N F L| |x l|s x y Op].
      - destruct (begin_word t' w' B' S') as (W' & _ & Es'). rewrite Es' in E. destruct (cut wordc w w' r1 r2 W W' (stops_off _ S1) (stops_off _ S2) E) as [<- ->].
        split; [|reflexivity]. exact (begin_same u t' w B B' Su S').
      - rewrite (show_fun s l N), !sapp_assoc in E. destruct (cut wordc w s r1 _ W (proj1 (fun_word s F N)) (stops_off _ S1) (O _) E) as [_ ->]. elim (Nw _ S1).
      - apply word_not in E; [discriminate E|exact W|exact Ne].
      - apply word_not in E; [discriminate E|exact W|exact Ne].
      - apply word_not in E; [discriminate E|exact W|exact Ne]. }
    split; [exact Cu|]. apply (T u Su Cu). intros (l & ->). inversion B. }
  induction t as [a s|s|n|s l IH|s l IH] using tm_ind2; intros Sp; try (eapply Wo; [constructor|exact Sp]).
  - destruct (spelled_fun s l Sp) as [Sl K]. assert (F : Forall (fun t => cuts t /\ tcuts t) l).
    { rewrite Forall_forall in *. rewrite forallb_forall in Sl. intros x Hx. apply IH; auto. }
    destruct K as [[-> [->|(x & r & ->)]]|(N & Fn & L)].
    + split.
      * intros t' r1 r2 S' S1 S2 E. destruct (form_of t' S') as [t' w' B'|s' l' N' F' L'| |x' r'|s' x' y' Op'].
        -- symmetry in E. destruct (begin_word t' w' B' S') as (W' & Ne' & Es'). rewrite Es' in E. apply word_not in E; [discriminate E|exact W'|exact Ne'].
        -- symmetry in E. rewrite (show_fun s' l' N'), !sapp_assoc in E. apply word_not in E; [discriminate E|exact (proj1 (fun_word s' F' N'))|now apply fun_ne].
        -- cbn in E. injection E as ->. auto.
        -- symmetry in E. cbn [show_at String.eqb Ascii.eqb Bool.eqb String.append] in E. injection E as E. rewrite sapp_assoc in E.
           destruct (spelled_fun _ _ S') as [Sl' _]. cbn [forallb] in Sl'. apply andb_true_iff in Sl'. elim (not_closing _ _ _ (proj1 Sl') E).
        -- discriminate E.
      * intros t' r1 r2 S' E. destruct (listy_dec t') as [(l & ->)|N'].
        -- destruct (spelled_fun _ _ S') as [_ [[_ [->|(x & r & ->)]]|(N & _)]]; [|discriminate E|now elim N]. cbn in E. injection E as ->. auto.
        -- rewrite (tail_plain t' N') in E. discriminate E.
    + inversion F as [|? ? [Cx _] F2]; subst. inversion F2 as [|? ? [_ Cr] _]; subst. split.
      * intros t' r1 r2 S' S1 S2 E. destruct (form_of t' S') as [t' w' B'|s' l' N' F' L'| |x' r'|s' x' y' Op'].
        -- symmetry in E. destruct (begin_word t' w' B' S') as (W' & Ne' & Es'). rewrite Es' in E. apply word_not in E; [discriminate E|exact W'|exact Ne'].
        -- symmetry in E. rewrite (show_fun s' l' N'), !sapp_assoc in E. apply word_not in E; [discriminate E|exact (proj1 (fun_word s' F' N'))|now apply fun_ne].
        -- cbn [show_at String.eqb Ascii.eqb Bool.eqb String.append] in E. injection E as E. rewrite sapp_assoc in E.
           cbn [forallb] in Sl. apply andb_true_iff in Sl. elim (not_closing _ _ _ (proj1 Sl) E).
        -- cbn [show_at String.eqb Ascii.eqb Bool.eqb String.append] in E. injection E as E. rewrite !sapp_assoc in E. cbn [String.append] in E.
           destruct (spelled_fun _ _ S') as [Sl' _]. cbn [forallb] in Sl'. rewrite !andb_true_iff in Sl'. destruct Sl' as (Sx' & Sr' & _).
           assert (St : forall u k, spelled u = true -> stops (show_at true u ++ String "]" k)%string).
           { intros u k Su. destruct (listy_dec u) as [(m & ->)|Nu]; [|rewrite (tail_plain u Nu); cbn; auto].
             destruct (spelled_fun _ _ Su) as [_ [[_ [->|(? & ? & ->)]]|(Nn & _)]]; [cbn; auto|cbn; auto|now elim Nn]. }
           cbn [forallb] in Sl. rewrite !andb_true_iff in Sl. destruct Sl as (Sx & Sr & _).
           destruct (Cx x' _ _ Sx' (St _ _ Sr) (St _ _ Sr') E) as [E1 E2]. destruct (Cr r' r1 r2 Sr' E2) as [E3 ->]. cbn [anon map]. now rewrite E1, E3.
        -- discriminate E.
      * intros t' r1 r2 S' E. destruct (listy_dec t') as [(l & ->)|N'].
        -- destruct (spelled_fun _ _ S') as [Sl' [[_ [->|(x' & r' & ->)]]|(N & _)]]; [discriminate E| |now elim N].
           cbn [show_at String.eqb Ascii.eqb Bool.eqb String.append] in E. injection E as E. rewrite !sapp_assoc in E.
           cbn [forallb] in Sl'. rewrite !andb_true_iff in Sl'. destruct Sl' as (Sx' & Sr' & _).
           assert (St : forall u k, spelled u = true -> stops (show_at true u ++ String "]" k)%string).
           { intros u k Su. destruct (listy_dec u) as [(m & ->)|Nu]; [|rewrite (tail_plain u Nu); cbn; auto].
             destruct (spelled_fun _ _ Su) as [_ [[_ [->|(? & ? & ->)]]|(Nn & _)]]; [cbn; auto|cbn; auto|now elim Nn]. }
           cbn [forallb] in Sl. rewrite !andb_true_iff in Sl. destruct Sl as (Sx & Sr & _).
           destruct (Cx x' _ _ Sx' (St _ _ Sr) (St _ _ Sr') E) as [E1 E2]. destruct (Cr r' r1 r2 Sr' E2) as [E3 ->]. cbn [anon map]. now rewrite E1, E3.
        -- rewrite (tail_plain t' N') in E. discriminate E.
    + assert (Cu : cuts (TFun s l)).
      { intros t' r1 r2 S' S1 S2 E. rewrite (show_fun s l N), !sapp_assoc in E. destruct (fun_word s Fn N) as [W _].
        destruct (form_of t' S') as [t' w' B'|s' l' N' F' L'| |x' r'|s' x' y' Op'].
        - destruct (begin_word t' w' B' S') as (W' & _ & Es'). rewrite Es' in E. destruct (cut wordc s w' _ r2 W W' (O _) (stops_off _ S2) E) as [_ <-]. elim (Nw _ S2).
        - rewrite (show_fun s' l' N'), !sapp_assoc in E. cbn [String.append] in E. destruct (cut wordc s s' _ _ W (proj1 (fun_word s' F' N')) (O _) (O _) E) as [<- E2]. injection E2 as E2.
          destruct (spelled_fun _ _ S') as [Sl' _]. destruct (args_cut l) with (m := l') (r1 := r1) (r2 := r2) as [E3 ->]; auto.
          + eapply Forall_impl; [|exact F]. intros ? A. apply A.
          + cbn [anon]. now rewrite E3.
        - apply word_not in E; [discriminate E|exact W|now apply fun_ne].
        - apply word_not in E; [discriminate E|exact W|now apply fun_ne].
        - apply word_not in E; [discriminate E|exact W|now apply fun_ne]. }
      split; [exact Cu|]. apply (T _ Sp Cu). intros (m & K). injection K as K _. contradiction.
  - pose proof (form_of _ Sp) as Fo. inversion Fo as [? w B| | | |s0 x y Op]; subst; [inversion B|].
    cbn [spelled forallb] in Sp. rewrite !andb_true_iff in Sp. destruct Sp as [_ (Sx & Sy & _)].
    assert (Sp : spelled (TEv s [x; y]) = true) by (cbn [spelled forallb List.length Nat.eqb]; now rewrite Op, Sx, Sy).
    inversion IH as [|? ? Ix I2]; subst. inversion I2 as [|? ? Iy _]; subst. destruct (Ix Sx) as [Cx _], (Iy Sy) as [Cy _].
    assert (Cu : cuts (TEv s [x; y])).
    { intros t' r1 r2 S' S1 S2 E. destruct (form_of t' S') as [t' w' B'|s' l' N' F' L'| |x' r'|s' x' y' Op'].
      - symmetry in E. destruct (begin_word t' w' B' S') as (W' & Ne' & Es'). rewrite Es' in E. apply word_not in E; [discriminate E|exact W'|exact Ne'].
      - symmetry in E. rewrite (show_fun s' l' N'), !sapp_assoc in E. apply word_not in E; [discriminate E|exact (proj1 (fun_word s' F' N'))|now apply fun_ne].
      - discriminate E.
      - discriminate E.
      - cbn [show_at String.append] in E. injection E as E. rewrite !sapp_assoc in E. cbn [String.append] in E.
        cbn [spelled forallb] in S'. rewrite !andb_true_iff in S'. destruct S' as [_ (Sx' & Sy' & _)].
        assert (Sb : forall r, stops (String " " r)) by (intros r; cbn; tauto). assert (Sc : forall r, stops (String ")" r)) by (intros r; cbn; tauto).
        destruct (Cx x' _ _ Sx' (Sb _) (Sb _) E) as [E1 E2]. injection E2 as E2. rewrite !sapp_assoc in E2. cbn [String.append] in E2. destruct (op_cut _ _ _ _ Op Op' E2) as [<- E3]. rewrite !sapp_assoc in E3.
        destruct (Cy y' _ _ Sy' (Sc _) (Sc _) E3) as [E4 E5]. injection E5 as ->. cbn [anon map]. now rewrite E1, E4. }
    split; [exact Cu|]. apply (T _ Sp Cu). intros (m & K). discriminate K.
Qed.
(** Two terms with the same notation are the same but for the identities of their variables. *)
Theorem show_inj t t' : spelled t = true -> spelled t' = true -> show t = show t' -> anon t = anon t'.
Proof. intros S S' E. unfold show in E. apply (proj1 (term_cut t S) t' "" "" S' I I). now rewrite E. Qed.
Theorem printed_inj t t' : spelled t = true -> spelled t' = true -> proper t = true -> proper t' = true -> printed false t = printed false t' -> anon t = anon t'.
Proof. intros S S' P P' E. rewrite (proj1 (printed_show t P)), (proj1 (printed_show t' P')) in E. now apply show_inj. Qed.
