(** The spelling of names: in the tables, and in the source of a session. *)
From Coq Require Import Decimal DecimalString.
From Verif Require Import Base Machine Heap Compiler Parser Print Organizer Spec Session Put Loads Grammar Shows AnswerText.
Open Scope string_scope.
Open Scope list_scope.

Lemma chars_app (a b : string) : list_ascii_of_string (a +++ b) = list_ascii_of_string a ++ list_ascii_of_string b.
Proof. induction a as [|c a IH]; cbn; [reflexivity|]. now rewrite IH. Qed.
Lemma name_with_app f a b : name_with f a = true -> forallb name_char (list_ascii_of_string b) = true -> name_with f (a +++ b) = true.
Proof.
  unfold name_with. rewrite chars_app. destruct (list_ascii_of_string a) as [|c l]; [discriminate|]. cbn [app]. rewrite forallb_app, !andb_true_iff. tauto.
Qed.
Lemma uint_chars d : forallb name_char (list_ascii_of_string (NilEmpty.string_of_uint d)) = true.
Proof. induction d; cbn; auto. Qed.
Lemma nat_chars n : forallb name_char (list_ascii_of_string (string_of_nat n)) = true.
Proof.
  unfold string_of_nat, string_of_Z. assert (K : exists u, Z.to_int (Z.of_nat n) = Decimal.Pos u) by (destruct n; cbn; eauto). destruct K as (u & ->). cbn [NilZero.string_of_int].
  destruct u; try reflexivity; apply uint_chars.
Qed.
Lemma op_spelled i s : op_name i = Some s -> existsb (String.eqb s) ["^"; "+"; "-"; "*"; "//"] = true.
Proof. unfold op_name. destruct i as [|p|p]; [intros E; now injection E as <-| |discriminate]. repeat (destruct p as [p|p|]; try discriminate); intros E; now injection E as <-. Qed.
Lemma name_with_of f g s : (forall c, f c = g c) -> name_of f s = name_with g s.
Proof.
  intros E. unfold name_with. destruct s as [|c s]; [reflexivity|]. cbn [name_of list_ascii_of_string]. rewrite E. f_equal.
  assert (K : forall c, is_idc c = name_char c).
  { intros x. apply Bool.eqb_prop. exact (all_ascii (fun x => Bool.eqb (is_idc x) (name_char x)) eq_refl x). }
  induction s as [|x s IH]; cbn; [reflexivity|]. now rewrite K, IH.
Qed.
Lemma lower_small c : is_lower c = small c.
Proof. apply Bool.eqb_prop. exact (all_ascii (fun x => Bool.eqb (is_lower x) (small x)) eq_refl c). Qed.
Lemma upper_capital c : is_upper c = capital c.
Proof. apply Bool.eqb_prop. exact (all_ascii (fun x => Bool.eqb (is_upper x) (capital x)) eq_refl c). Qed.

(** the table of functors *)
Theorem functors_spelled cf o P s i f : session cf o P s -> nthZ (s_functors (o_sto o)) i = Some f -> functor_name (fv_name f) = true.
Proof.
  intros H E. apply nthZ_in in E. apply (proj1 (ow_sto o (session_words _ _ _ _ H))) in E. unfold functor_name. rewrite <- (name_with_of is_lower small _ lower_small). exact E.
Qed.
(** the variables of the source *)
Lemma session_g cf o P s : session cf o P s -> forallb g_clause P = true /\ match s with QFresh q | QStarted q => g_query q = true | _ => True end.
Proof.
  induction 1 as [o E|o P s text cs o' H IH Ep E|o P s text r o' H IH E Hr|o P s text q o' H IH Ep E
                 |o P s text r o' H IH E Hr|o P s t H IH|o P s fuel n w r o' H IH Hs E Hr]; auto.
  - destruct IH as [_ IH]. split; [eapply parse_program_g; eauto|]. destruct s; first [exact IH|exact Logic.I].
  - destruct IH as [IH _]. split; [assumption|]. cbn. eapply parse_query_g; eauto.
  - destruct IH as [IH _]. split; [assumption|exact Logic.I].
  - destruct IH as [IH1 IH2]. split; [assumption|]. destruct s; first [exact IH2|exact Logic.I].
Qed.
Lemma var_below n : (forall s, In s (nvars n) -> sub (NVar s) n) /\ (forall s, In s (ncons n) -> sub (NCon s) n).
Proof.
  assert (K : forall (f : node -> list string) (g : string -> node) l, Forall (fun n => forall s, In s (f n) -> sub (g s) n) l -> forall s, In s (flat_map f l) -> exists k, In k l /\ sub (g s) k).
  { intros f g l F s Hs. apply in_flat_map in Hs. destruct Hs as (k & Hk & Hs). rewrite Forall_forall in F. eauto. }
  induction n as [s|s|s|s l IH|s l IH] using node_ind'; (split; intros x Hx; [cbn [nvars] in Hx|cbn [ncons] in Hx]); try contradiction.
  - destruct Hx as [<-|[]]. constructor.
  - destruct Hx as [<-|[]]. constructor.
  - destruct (K nvars NVar l) with (s := x) as (k & Hk & S); [eapply Forall_impl; [|exact IH]; intros ? A; apply A|exact Hx|]. econstructor; eauto.
  - destruct (K ncons NCon l) with (s := x) as (k & Hk & S); [eapply Forall_impl; [|exact IH]; intros ? A; apply A|exact Hx|]. econstructor; eauto.
  - destruct (K nvars NVar l) with (s := x) as (k & Hk & S); [eapply Forall_impl; [|exact IH]; intros ? A; apply A|exact Hx|]. econstructor; eauto.
  - destruct (K ncons NCon l) with (s := x) as (k & Hk & S); [eapply Forall_impl; [|exact IH]; intros ? A; apply A|exact Hx|]. econstructor; eauto.
Qed.
Lemma atom_names n : g_atom n = true -> (forall s, In s (nvars n) -> name_with capital s = true) /\ (forall s, In s (ncons n) -> name_with small s = true).
Proof.
  intros G. split; intros s Hs.
  - apply (proj1 (var_below n)) in Hs. inversion Hs as [E|? k Hk S]; subst; [discriminate G|].
    pose proof (sub_term _ _ S (proj2 (g_atom_inv n G) k Hk)) as T. rewrite <- (name_with_of is_upper capital _ upper_capital). exact T.
  - apply (proj2 (var_below n)) in Hs. rewrite <- (name_with_of is_lower small _ lower_small). inversion Hs as [E|? k Hk S]; subst; [exact G|].
    pose proof (sub_term _ _ S (proj2 (g_atom_inv n G) k Hk)) as T. exact T.
Qed.
Lemma own_names cf o P q : session cf o P (QFresh q) -> forall n, In n (atoms q P) ->
  (forall s, In s (nvars n) -> name_with capital s = true) /\ (forall s, In s (ncons n) -> name_with small s = true).
Proof.
  intros H n Hn. destruct (session_g _ _ _ _ H) as [GP GQ]. unfold atoms in Hn. rewrite !in_app_iff in Hn.
  destruct Hn as [Hn|[Hn|Hn]].
  - unfold g_query in GQ. destruct q as [|m q]; [contradiction|]. rewrite forallb_forall in GQ. exact (atom_names n (GQ n Hn)).
  - apply in_concat in Hn. destruct Hn as (c & Hc & Hn). rewrite forallb_forall in GP. specialize (GP c Hc). apply g_clause_atoms in GP. rewrite forallb_forall in GP. exact (atom_names n (GP n Hn)).
  - apply in_concat in Hn. destruct Hn as (c & Hc & Hn).
    assert (K : forallb (forallb (fun n => forallb (name_with capital) (nvars n) && forallb (name_with small) (ncons n))) append_clauses = true) by reflexivity.
    rewrite forallb_forall in K. specialize (K c Hc). rewrite forallb_forall in K. specialize (K n Hn). rewrite andb_true_iff, !forallb_forall in K. exact K.
Qed.
Theorem own_capital cf o P q s : session cf o P (QFresh q) -> In s (flat_map nvars (atoms q P)) -> name_with capital s = true.
Proof. intros H Hs. apply in_flat_map in Hs. destruct Hs as (n & Hn & Hs). exact (proj1 (own_names cf o P q H n Hn) s Hs). Qed.
Theorem own_small cf o P q s : session cf o P (QFresh q) -> In s (flat_map ncons (atoms q P)) -> name_with small s = true.
Proof. intros H Hs. apply in_flat_map in Hs. destruct Hs as (n & Hn & Hs). exact (proj2 (own_names cf o P q H n Hn) s Hs). Qed.
