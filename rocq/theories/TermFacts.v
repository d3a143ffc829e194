(** The dialogue at the terminal. *)
From Verif Require Import Base Machine Heap Compiler Parser Print Organizer Session Runs Terminal.
Open Scope string_scope.
Open Scope list_scope.

(** [asks cf o rs o']: consecutive calls of get_answer lead from [o] to [o'] and return [rs]. *)
Inductive asks (cf : cfg) : org -> list res -> org -> Prop :=
| asks_nil o : asks cf o [] o
| asks_more o rs o1 fuel n w r o2 : asks cf o rs o1 -> get_answer cf fuel n w o1 = Val (r, o2) -> asks cf o (rs ++ [r]) o2.
(** [dialogue cf o l o']: queries with the texts and results of [l] are asked one after the other; for each of them get_answer is
    called at least once. *)
Inductive dialogue (cf : cfg) : org -> list (string * list res) -> org -> Prop :=
| dia_nil o : dialogue cf o [] o
| dia_query o l o1 t lr o2 r rs o3 : dialogue cf o l o1 -> load_query cf t o1 = Some (lr, o2) -> lr <> LEscape ->
    asks cf o2 (r :: rs) o3 -> dialogue cf o (l ++ [(t, r :: rs)]) o3.

(** what is printed for one result *)
Definition answer_text (b : list (string * string)) : string :=
  match b with [] => ("true" ++ nl)%string | _ => String.concat nl (map (fun x => "[" ++ fst x ++ " / " ++ snd x ++ "]")%string b) end.
Lemma lines_text b : lines_str b = String.concat nl (map (fun x => "[" ++ fst x ++ " / " ++ snd x ++ "]")%string b).
Proof. induction b as [|x b IH]; [reflexivity|]. cbn [lines_str map String.concat]. rewrite IH. now destruct b. Qed.
Definition result_text (err : string) (r : res) : string :=
  match r with
  | RFalse => ("false" ++ nl)%string
  | RAnswer b => answer_text b
  | _ => match explain r with Some e => (err ++ e ++ nl)%string | None => "" end
  end.
Definition results_text (rs : list res) : string :=
  match rs with
  | [] => ""
  | r :: rs' => (result_text "error: " r ++ String.concat "" (map (result_text "Error: ") rs'))%string
  end.
(** what is printed in a dialogue *)
Definition dialogue_text (l : list (string * list res)) : string :=
  String.concat "" (map (fun x => "?- " ++ results_text (snd x))%string l).

(** --- what is typed --- *)
Fixpoint has_char (c : ascii) (s : string) : bool :=
  match s with "" => false | String d r => Ascii.eqb d c || has_char c r end.
(** what is skipped behind the full stop: the rest of the line, at most 1024 characters *)
Inductive skipped : string -> Prop :=
| sk_line s : has_char newline s = false -> (String.length s < ignore_max)%nat -> skipped (s ++ nl)
| sk_long s : has_char newline s = false -> String.length s = ignore_max -> skipped s.
Fixpoint semicolons (k : nat) : string := match k with 0 => "" | S k' => (";" ++ nl ++ semicolons k')%string end.
(** the line that ends the list of answers: after an answer with bindings, and only then, one is read *)
Definition last_line (r : res) (s : string) : Prop :=
  match r with
  | RAnswer (_ :: _) => exists a, s = (a ++ nl)%string /\ a <> ";" /\ has_char newline a = false
  | _ => s = ""
  end.
(** [typed i l rest]: reading [i], the queries of [l] are typed, as many semicolons as results were asked for, and [rest] is left *)
Inductive typed : string -> list (string * list res) -> string -> Prop :=
| ty_nil i : typed i [] i
| ty_query i l t sk r rs ll rest : has_char "." t = false -> t <> "q" -> skipped sk -> last_line (last rs r) ll ->
    typed i l (t ++ "." ++ sk ++ semicolons (List.length rs) ++ ll ++ rest) -> typed i (l ++ [(t, r :: rs)]) rest.
(** the same when the line that ends the last list of answers is still to come *)
Definition typing (i : string) (l : list (string * list res)) (rest : string) : Prop :=
  exists l' t sk r rs, l = l' ++ [(t, r :: rs)] /\ has_char "." t = false /\ t <> "q" /\ skipped sk /\
    typed i l' (t ++ "." ++ sk ++ semicolons (List.length rs) ++ rest).

Lemma sapp_nil s : (s ++ "" = s)%string.
Proof. induction s as [|c s IH]; [reflexivity|]. cbn. now rewrite IH. Qed.
Lemma sapp_assoc a b c : ((a ++ b) ++ c = a ++ (b ++ c))%string.
Proof. induction a as [|x a IH]; [reflexivity|]. cbn. now rewrite IH. Qed.
Lemma sconcat_cons a l : String.concat "" (a :: l) = (a ++ String.concat "" l)%string.
Proof. destruct l; cbn; [now rewrite sapp_nil|reflexivity]. Qed.
Lemma sconcat_app l k : String.concat "" (l ++ k) = (String.concat "" l ++ String.concat "" k)%string.
Proof.
  induction l as [|a l IH]; [reflexivity|].
  change ((a :: l) ++ k) with (a :: (l ++ k)). rewrite !sconcat_cons, IH. now rewrite sapp_assoc.
Qed.
Lemma sapp_inv a b c : (a ++ b = a ++ c)%string -> b = c.
Proof. induction a as [|x a IH]; cbn; intros H; [exact H|]. injection H as H. now apply IH. Qed.

Lemma break_some d s a r : break_at d s = (a, Some r) -> s = (a ++ String d r)%string /\ has_char d a = false.
Proof.
  revert a. induction s as [|c s IH]; cbn; intros a; [congruence|]. destruct (Ascii.eqb c d) eqn:E.
  - intros [= <- <-]. apply Ascii.eqb_eq in E. subst c. now split.
  - destruct (break_at d s) as [a' x] eqn:B. intros [= <- ->]. destruct (IH a' eq_refl) as [F G]. cbn. rewrite E. cbn. now rewrite <- F, G.
Qed.
Lemma break_none d s a : break_at d s = (a, None) -> a = s.
Proof.
  revert a. induction s as [|c s IH]; cbn; intros a; [congruence|]. destruct (Ascii.eqb c d) eqn:E; [congruence|].
  destruct (break_at d s) as [a' x] eqn:B. intros [= <- ->]. now rewrite (IH a' eq_refl).
Qed.
Lemma break_app d a r : has_char d a = false -> break_at d (a ++ String d r) = (a, Some r).
Proof.
  induction a as [|c a IH]; cbn; intros H.
  - now rewrite Ascii.eqb_refl.
  - apply orb_false_iff in H as [E H]. rewrite E, (IH H). reflexivity.
Qed.
Lemma ignore_skipped n s i : ignore_to n s = i -> i_good i = true ->
  exists t, s = (t ++ i_rest i)%string /\
    ((exists u, t = (u ++ nl)%string /\ has_char newline u = false /\ (String.length u < n)%nat) \/
     (has_char newline t = false /\ String.length t = n)).
Proof.
  revert s i. induction n as [|n IH]; intros s i H G.
  - subst i. exists "". split; [reflexivity|]. right. now split.
  - cbn [ignore_to] in H. destruct s as [|c s]; [subst i; discriminate G|]. destruct (Ascii.eqb c newline) eqn:E.
    + subst i. exists nl. apply Ascii.eqb_eq in E. subst c. split; [reflexivity|]. left. exists "". split; [reflexivity|].
      split; [reflexivity|]. cbn. lia.
    + destruct (IH s i H G) as (t & F & D). exists (String c t). split; [cbn; now rewrite F|].
      destruct D as [(u & Hu & A & B)|[A B]].
      * left. exists (String c u). split; [cbn; now rewrite Hu|]. cbn [has_char String.length]. rewrite E, A. split; [reflexivity|lia].
      * right. cbn [has_char String.length]. rewrite E, A. split; [reflexivity|lia].
Qed.

(** --- one round --- *)
Definition pending (s : tstate) : string := match t_show s with None => "" | Some b => answer_text b end.
(** after the queries [l] and the output [w] *)
Definition reached (cf : cfg) (o : org) (i : string) (l : list (string * list res)) (w : string) (s : tstate) : Prop :=
  dialogue cf o l (t_org s) /\ dialogue_text l = (w ++ pending s)%string /\
  match t_show s with
  | None => i_good (t_in s) = true -> typed i l (i_rest (t_in s))
  | Some b => (exists l' t rs, l = l' ++ [(t, rs)] /\ rs <> [] /\ last rs RFalse = RAnswer b) /\
              (i_good (t_in s) = true -> typing i l (i_rest (t_in s)))
  end.

Lemma dialogue_text_app l k : dialogue_text (l ++ k) = (dialogue_text l ++ dialogue_text k)%string.
Proof. unfold dialogue_text. now rewrite map_app, sconcat_app. Qed.
Lemma results_text_app r rs r' :
  results_text ((r :: rs) ++ [r']) = (results_text (r :: rs) ++ result_text "Error: " r')%string.
Proof. cbn [results_text List.app]. rewrite map_app, sconcat_app, sapp_assoc. reflexivity. Qed.
Lemma dialogue_text_more l t r rs r' : dialogue_text (l ++ [(t, (r :: rs) ++ [r'])]) =
  (dialogue_text (l ++ [(t, r :: rs)]) ++ result_text "Error: " r')%string.
Proof.
  rewrite !dialogue_text_app. unfold dialogue_text at 2 4. cbn [map snd String.concat].
  rewrite results_text_app. now rewrite !sapp_assoc.
Qed.
Lemma last_cons_default {A} (l : list A) a d : l <> [] -> last l d = last l a.
Proof. induction l as [|x l IH]; [congruence|]. intros _. destruct l; [reflexivity|]. now apply IH. Qed.
Lemma semicolons_snoc k : (semicolons k ++ ";" ++ nl = semicolons (S k))%string.
Proof. induction k as [|k IH]; [reflexivity|]. cbn [semicolons]. cbn [semicolons] in IH. rewrite !sapp_assoc, IH. reflexivity. Qed.

Lemma asks_app cf o rs o1 fuel n w r o2 : asks cf o rs o1 -> get_answer cf fuel n w o1 = Val (r, o2) -> asks cf o (rs ++ [r]) o2.
Proof. intros. econstructor; eassumption. Qed.
Lemma dialogue_last cf o l t rs o' : dialogue cf o (l ++ [(t, rs)]) o' -> exists o1 lr o2, dialogue cf o l o1 /\
  load_query cf t o1 = Some (lr, o2) /\ lr <> LEscape /\ rs <> [] /\ asks cf o2 rs o'.
Proof.
  intros H. inversion H as [x A B C|x l0 o1 t0 lr o2 r rs0 o3 D L E F A B C].
  - destruct l; discriminate B.
  - apply app_inj_tail in B as [<- B]. injection B as <- <-. exists o1, lr, o2. repeat split; auto. discriminate.
Qed.

Lemma val_eq {A B C} (a c : A) (b d : B) : @Val (A * (B + C)) (a, inl b) = Val (c, inl d) -> a = c /\ b = d.
Proof. intros [= -> ->]. now split. Qed.
Section Rounds.
Variable cf : cfg.
Variable fuel n : nat.
Variable ws : nat -> world.
Notation step := (tstep cf fuel n ws).
Notation steps := (tsteps cf fuel n ws).

Lemma explain_text r e err : explain r = Some e -> result_text err r = (err ++ e ++ nl)%string.
Proof. intros H. unfold result_text. destruct r; try discriminate H; now rewrite H. Qed.
Lemma explain_none r : explain r = None -> r = RFalse \/ exists b, r = RAnswer b.
Proof. destruct r as [|b|[]| |]; cbn; intros; try discriminate; eauto. Qed.

Definition stops (r : res) : bool := match explain r with Some _ => true | None => false end.
(** how a round can end *)
Lemma step_reached o i l w s v s' : reached cf o i l w s -> step s = Val (v, inl s') ->
  exists l', reached cf o i l' (w ++ v) s'.
Proof.
  intros (D & T & R) H. unfold tstep in H. unfold pending in T. destruct (t_show s) as [b|] eqn:Sh.
  - destruct R as [(l0 & t & rs & El & Nr & La) Ty]. unfold at_answer in H. destruct b as [|b0 b].
    + apply val_eq in H as [<- <-]. exists l. repeat split; unfold pending, back; cbn [t_org t_show t_in].
      * exact D.
      * now rewrite T, sapp_nil.
      * intros G. destruct (Ty G) as (l1 & t1 & sk & r & rs1 & E1 & C1 & Q1 & S1 & T1).
        rewrite E1 in El. apply app_inj_tail in El as [<- El]. injection El as <- Er. subst rs.
        rewrite E1. apply (ty_query i l1 t1 sk r rs1 ""); auto.
        rewrite (last_cons_default (r :: rs1) r RFalse) in La; [|discriminate].
        assert (L2 : last rs1 r = RAnswer []).
        { destruct rs1; [exact La|]. exact La. }
        now rewrite L2.
    + destruct (getline newline "" (t_in s)) as [more i1] eqn:Gl.
      assert (Gd : i_good i1 = true -> i_good (t_in s) = true /\ i_rest (t_in s) = (more ++ nl ++ i_rest i1)%string /\ has_char newline more = false).
      { unfold getline in Gl. destruct (i_good (t_in s)) eqn:Gs.
        - destruct (break_at newline (i_rest (t_in s))) as [a [r|]] eqn:B; injection Gl as <- <-; intros G; [|discriminate G].
          apply break_some in B as [B1 B2]. split; [reflexivity|]. split; [exact B1|exact B2].
        - injection Gl as <- <-. intros G. congruence. }
      destruct (more =? ";") eqn:M.
      * apply String.eqb_eq in M. subst more.
        destruct (get_answer cf fuel n (ws (t_k s)) (t_org s)) as [[r o2]| |] eqn:GA; try discriminate H.
        cbn [bind] in H.
        assert (K : explain r = None -> exists l', dialogue cf o l' o2 /\
                 dialogue_text l' = (dialogue_text l ++ result_text "Error: " r)%string /\
                 (exists l'0 t' rs', l' = l'0 ++ [(t', rs')] /\ rs' <> [] /\ last rs' RFalse = r) /\
                 (i_good i1 = true -> typing i l' (i_rest i1))).
        { intros _. subst l. destruct (dialogue_last _ _ _ _ _ _ D) as (o1 & lr & o3 & D1 & L & NE & NR & A).
          destruct rs as [|r0 rs]; [congruence|].
          exists (l0 ++ [(t, r0 :: (rs ++ [r]))]). split; [|split; [|split]].
          - econstructor; eauto. change (r0 :: (rs ++ [r])) with ((r0 :: rs) ++ [r]). eapply asks_app; eauto.
          - exact (dialogue_text_more l0 t r0 rs r).
          - exists l0, t, (r0 :: rs ++ [r]). repeat split; [discriminate|]. change (r0 :: rs ++ [r]) with ((r0 :: rs) ++ [r]). apply last_last.
          - intros G. destruct (Gd G) as (G1 & G2 & _). destruct (Ty G1) as (l1 & t1 & sk & r1 & rs1 & E1 & C1 & Q1 & S1 & T1).
            apply app_inj_tail in E1 as [<- E1]. injection E1 as <- <- <-.
            exists l0, t, sk, r0, (rs ++ [r]). repeat split; auto. rewrite G2 in T1.
            rewrite app_length. cbn [List.length]. rewrite Nat.add_1_r, <- semicolons_snoc. rewrite !sapp_assoc. exact T1. }
        destruct (explain r) as [e|] eqn:Ex; [discriminate H|].
        destruct (K eq_refl) as (l' & D' & T' & La' & Ty'). exists l'.
        destruct (explain_none r Ex) as [->|[b' ->]].
        -- apply val_eq in H as [<- <-]. repeat split; unfold pending, back; cbn [t_org t_show t_in].
           ++ exact D'.
           ++ rewrite T', T. cbn [result_text]. unfold answer_text. rewrite <- ?lines_text. now rewrite !sapp_assoc, ?sapp_nil.
           ++ intros G. destruct (Ty' G) as (l1 & t1 & sk & r1 & rs1 & E1 & C1 & Q1 & S1 & T1). subst l'.
              destruct La' as (l2 & t2 & rs2 & E2 & N2 & L2). apply app_inj_tail in E2 as [<- E2]. injection E2 as <- <-.
              apply (ty_query i l1 t1 sk r1 rs1 ""); auto.
              assert (last rs1 r1 = RFalse) as ->; [|reflexivity].
              rewrite (last_cons_default (r1 :: rs1) r1 RFalse) in L2; [|discriminate]. destruct rs1; exact L2.
        -- apply val_eq in H as [<- <-]. repeat split; unfold pending, back; cbn [t_org t_show t_in].
           ++ exact D'.
           ++ rewrite T', T. cbn [result_text]. unfold answer_text at 1. rewrite ?lines_text. now rewrite !sapp_assoc.
           ++ exact La'.
           ++ exact Ty'.
      * apply val_eq in H as [<- <-]. exists l. repeat split; unfold pending, back; cbn [t_org t_show t_in].
        -- exact D.
        -- rewrite T. unfold answer_text. now rewrite <- ?lines_text, sapp_nil.
        -- intros G. destruct (Gd G) as (G1 & G2 & G3). destruct (Ty G1) as (l1 & t1 & sk & r & rs1 & E1 & C1 & Q1 & S1 & T1).
           rewrite E1 in El. apply app_inj_tail in El as [<- El]. injection El as <- Er. subst rs.
           rewrite E1. apply (ty_query i l1 t1 sk r rs1 (more ++ nl)); auto.
           ++ assert (L2 : last rs1 r = RAnswer (b0 :: b)).
              { rewrite (last_cons_default (r :: rs1) r RFalse) in La; [|discriminate]. destruct rs1; exact La. }
              rewrite L2. exists more. repeat split; auto. intros ->. discriminate M.
           ++ rewrite G2 in T1. now rewrite sapp_assoc.
  - unfold at_prompt in H. destruct (getline "." (t_cur s) (t_in s)) as [cur i1] eqn:Gl.
    destruct (cur =? "q") eqn:Q; [discriminate H|].
    destruct (load_query cf cur (t_org s)) as [[lr o1]|] eqn:L; [|discriminate H].
    assert (Gd : i_good (ignore i1) = true -> exists sk, i_good (t_in s) = true /\
       i_rest (t_in s) = (cur ++ "." ++ sk ++ i_rest (ignore i1))%string /\ has_char "." cur = false /\ skipped sk).
    { unfold ignore. destruct (i_good i1) eqn:G1; [|congruence]. intros G.
      destruct (ignore_skipped _ _ _ eq_refl G) as (sk & E & K). exists sk.
      unfold getline in Gl. destruct (i_good (t_in s)) eqn:Gs.
      - destruct (break_at "." (i_rest (t_in s))) as [a [r|]] eqn:B; injection Gl as <- <-; [|discriminate G1].
        apply break_some in B as [B1 B2]. split; [reflexivity|]. cbn [i_rest] in E |- *. rewrite <- E. split; [exact B1|]. split; [exact B2|].
        destruct K as [(u & -> & A & Le)|[A Le]]; [now constructor|now apply sk_long].
      - injection Gl as <- <-. congruence. }
    assert (Nq : cur <> "q") by (intros ->; discriminate Q).
    rewrite sapp_nil in T.
    destruct lr as [|ce|]; [| |discriminate H].
    all: destruct (get_answer cf fuel n (ws (t_k s)) o1) as [[r o2]| |] eqn:GA; try discriminate H; cbn [bind] in H.
    all: exists (l ++ [(cur, [r])]).
    all: assert (D' : dialogue cf o (l ++ [(cur, [r])]) o2)
      by (econstructor; eauto; [discriminate|]; apply (asks_app cf o1 [] o1 fuel n (ws (t_k s)) r o2); [constructor|exact GA]).
    all: assert (T' : dialogue_text (l ++ [(cur, [r])]) = (w ++ "?- " ++ result_text "error: " r)%string)
      by (rewrite dialogue_text_app, T; unfold dialogue_text; cbn [map snd String.concat results_text]; now rewrite sapp_nil).
    all: assert (Ty' : i_good (ignore i1) = true -> typing i (l ++ [(cur, [r])]) (i_rest (ignore i1)))
      by (intros G; destruct (Gd G) as (sk & G1 & G2 & G3 & G4); exists l, cur, sk, r, []; repeat split; auto; specialize (R G1); rewrite G2 in R; exact R).
    all: assert (Ty2 : (forall b, r <> RAnswer b) -> i_good (ignore i1) = true -> typed i (l ++ [(cur, [r])]) (i_rest (ignore i1)))
      by (intros NB G; destruct (Gd G) as (sk & G1 & G2 & G3 & G4); specialize (R G1); rewrite G2 in R;
          apply (ty_query i l cur sk r [] ""); auto; cbn [last]; unfold last_line; destruct r; auto; exfalso; eapply NB; reflexivity).
    all: destruct (explain r) as [e|] eqn:Ex;
      [ apply val_eq in H as [<- <-]; repeat split; unfold pending, back; cbn [t_org t_show t_in];
        [ exact D' | rewrite T', (explain_text r e _ Ex), sapp_nil; reflexivity | apply Ty2; intros b ->; discriminate Ex ] |].
    all: destruct (explain_none r Ex) as [->|[b ->]]; apply val_eq in H as [<- <-]; repeat split; unfold pending, back; cbn [t_org t_show t_in].
    all: try exact D'.
    all: try (rewrite T'; cbn [result_text]; now rewrite ?sapp_nil, ?sapp_assoc).
    all: try exact Ty'.
    all: try (apply Ty2; intros b; discriminate).
    all: exists l, cur, [RAnswer b]; repeat split; discriminate.
Qed.
Lemma steps_reached k : forall o i l w s v s', reached cf o i l w s -> steps k s = Val (v, inl s') ->
  exists l', reached cf o i l' (w ++ v) s'.
Proof.
  induction k as [|k IH]; intros o i l w s v s' R H; cbn in H.
  - injection H as <- <-. exists l. now rewrite sapp_nil.
  - destruct (step s) as [[w1 [s1|e]]| |] eqn:St; try discriminate H. cbn in H.
    destruct (steps k s1) as [[v1 y]| |] eqn:Ss; try discriminate H. cbn in H. injection H as <- ->.
    destruct (step_reached _ _ _ _ _ _ _ R St) as [l1 R1]. destruct (IH _ _ _ _ _ _ _ R1 Ss) as [l2 R2].
    exists l2. now rewrite <- sapp_assoc.
Qed.
End Rounds.

(** --- the end --- *)
Definition start (o : org) (input : string) : tstate :=
  {| t_in := {| i_rest := input; i_good := true |}; t_cur := ""; t_org := o; t_k := 0; t_show := None |}.
Definition header (paths : list string) : string :=
  ((match paths with [] => "No file found to read source code from!" ++ nl | _ => "" end) ++ greeting)%string.

Section Ends.
Variable cf : cfg.
Variable fuel n : nat.
Variable ws : nat -> world.
Notation step := (tstep cf fuel n ws).
Notation steps := (tsteps cf fuel n ws).

Lemma start_reached o i : reached cf o i [] "" (start o i).
Proof. repeat split; cbn; intros; constructor. Qed.
Lemma step_cur s v s' : t_cur s <> "q" -> step s = Val (v, inl s') -> t_cur s' <> "q".
Proof.
  intros Nq H. unfold tstep in H. destruct (t_show s) as [[|b0 b]|].
  - injection H as <- <-. exact Nq.
  - unfold at_answer in H. destruct (getline newline "" (t_in s)) as [more i1]. destruct (more =? ";").
    + destruct (get_answer _ _ _ _ _) as [[r o2]| |]; try discriminate H. cbn [bind] in H.
      destruct (explain r); [discriminate H|]. destruct r; injection H as <- <-; exact Nq.
    + injection H as <- <-. exact Nq.
  - unfold at_prompt in H. destruct (getline "." (t_cur s) (t_in s)) as [cur i1].
    destruct (cur =? "q") eqn:Q; [discriminate H|]. assert (cur <> "q") as Nc by (intros ->; discriminate Q).
    destruct (load_query cf cur (t_org s)) as [[lr o1]|]; [|discriminate H]. destruct lr; try discriminate H.
    all: destruct (get_answer _ _ _ _ _) as [[r o2]| |]; try discriminate H; cbn [bind] in H.
    all: destruct (explain r); [injection H as <- <-; exact Nc|]. all: destruct r; injection H as <- <-; exact Nc.
Qed.
Lemma steps_end k : forall o i l w s v e, reached cf o i l w s -> t_cur s <> "q" -> steps k s = Val (v, inr e) ->
  exists l' w' s1 v1, reached cf o i l' w' s1 /\ t_cur s1 <> "q" /\ step s1 = Val (v1, inr e) /\ (w ++ v = w' ++ v1)%string.
Proof.
  induction k as [|k IH]; intros o i l w s v e R Nq H; cbn in H; [discriminate H|].
  destruct (step s) as [[w1 [s1|e1]]| |] eqn:St; try discriminate H; cbn in H.
  - destruct (steps k s1) as [[v1 y]| |] eqn:Ss; try discriminate H. cbn in H. injection H as <- ->.
    destruct (step_reached _ _ _ _ _ _ _ _ _ _ _ R St) as [l1 R1].
    destruct (IH _ _ _ _ _ _ _ R1 (step_cur _ _ _ Nq St) Ss) as (l2 & w2 & s2 & v2 & A & B & C & D).
    exists l2, w2, s2, v2. repeat split; auto; try apply A. now rewrite <- D, sapp_assoc.
  - injection H as <- <-. exists l, w, s, w1. auto.
Qed.
Lemma quit_step o i l w s v : reached cf o i l w s -> t_cur s <> "q" -> step s = Val (v, inr TQuit) ->
  v = "?- " /\ dialogue cf o l (t_org s) /\ dialogue_text l = w /\ (typed i l "q" \/ exists rest, typed i l ("q." ++ rest)).
Proof.
  intros (D & T & R) Nq H. unfold tstep in H. unfold pending in T. destruct (t_show s) as [[|b0 b]|].
  - discriminate H.
  - unfold at_answer in H. destruct (getline newline "" (t_in s)) as [more i1]. destruct (more =? ";"); [|discriminate H].
    destruct (get_answer _ _ _ _ _) as [[r o2]| |]; try discriminate H. cbn [bind] in H.
    destruct (explain r); [discriminate H|]. destruct r; discriminate H.
  - unfold at_prompt in H. destruct (getline "." (t_cur s) (t_in s)) as [cur i1] eqn:Gl.
    destruct (cur =? "q") eqn:Q.
    + injection H as <-. apply String.eqb_eq in Q. subst cur. split; [reflexivity|]. split; [exact D|].
      split; [now rewrite sapp_nil in T|].
      unfold getline in Gl. destruct (i_good (t_in s)) eqn:G; [|injection Gl as E _; congruence].
      specialize (R eq_refl). destruct (break_at "." (i_rest (t_in s))) as [a [r|]] eqn:B; injection Gl as -> <-.
      * right. exists r. apply break_some in B as [B _]. rewrite B in R. exact R.
      * left. apply break_none in B. now rewrite B.
    + destruct (load_query cf cur (t_org s)) as [[lr o1]|]; [|discriminate H]. destruct lr; try discriminate H.
      all: destruct (get_answer _ _ _ _ _) as [[r o2]| |]; try discriminate H; cbn [bind] in H.
      all: destruct (explain r); [discriminate H|]. all: destruct r; discriminate H.
Qed.
(** how the program can fail: an exception escapes from load_query, or a further answer was asked for and there is an error *)
Lemma abort_step o i l w s v : reached cf o i l w s -> step s = Val (v, inr TAbort) ->
  (exists t o1, dialogue cf o l (t_org s) /\ load_query cf t (t_org s) = Some (LEscape, o1) /\ (w ++ v = dialogue_text l ++ "?- ")%string) \/
  (exists l' t rs b r o1, dialogue cf o (l' ++ [(t, rs ++ [RAnswer b; r])]) o1 /\ b <> [] /\ explain r <> None /\
     (w ++ v)%string = dialogue_text (l' ++ [(t, rs ++ [RAnswer b; r])])).
Proof.
  intros (D & T & R) H. unfold tstep in H. unfold pending in T. destruct (t_show s) as [[|b0 b]|].
  - discriminate H.
  - right. unfold at_answer in H. destruct (getline newline "" (t_in s)) as [more i1]. destruct (more =? ";"); [|discriminate H].
    destruct (get_answer _ _ _ _ _) as [[r o2]| |] eqn:GA; try discriminate H. cbn [bind] in H.
    destruct (explain r) as [e|] eqn:Ex; [|destruct r; discriminate H].
    assert (Ev : v = (lines_str (b0 :: b) ++ "Error: " ++ e ++ nl)%string) by (injection H as <-; reflexivity).
    destruct R as [(l0 & t & rs & -> & Nr & La) _].
    destruct (dialogue_last _ _ _ _ _ _ D) as (o1 & lr & o3 & D1 & L & NE & _ & A).
    destruct (exists_last Nr) as (rs0 & x & ->). rewrite last_last in La. subst x.
    exists l0, t, rs0, (b0 :: b), r, o2. split; [|split; [discriminate|split; [now rewrite Ex|]]].
    + pose proof (asks_app _ _ _ _ _ _ _ _ _ A GA) as A2. rewrite <- app_assoc in A2. cbn [List.app] in A2.
      destruct (rs0 ++ [RAnswer (b0 :: b); r]) as [|r1 rs1] eqn:E1; [destruct rs0; discriminate E1|].
      econstructor; eauto.
    + assert (E2 : rs0 ++ [RAnswer (b0 :: b); r] = (rs0 ++ [RAnswer (b0 :: b)]) ++ [r]) by now rewrite <- app_assoc.
      rewrite E2. destruct (rs0 ++ [RAnswer (b0 :: b)]) as [|r1 rs1] eqn:E1; [destruct rs0; discriminate E1|].
      rewrite dialogue_text_more, T, (explain_text r e _ Ex), Ev. unfold answer_text. rewrite <- ?lines_text. now rewrite !sapp_assoc.
  - left. unfold at_prompt in H. destruct (getline "." (t_cur s) (t_in s)) as [cur i1] eqn:Gl.
    destruct (cur =? "q") eqn:Q; [discriminate H|].
    destruct (load_query cf cur (t_org s)) as [[lr o1]|] eqn:L; [|discriminate H]. destruct lr.
    1, 2: destruct (get_answer _ _ _ _ _) as [[r o2]| |]; try discriminate H; cbn [bind] in H;
          destruct (explain r); [discriminate H|]; destruct r; discriminate H.
    injection H as <-. exists cur, o1. rewrite T, sapp_nil. auto.
Qed.

Lemma normal_mode_split paths i k w y : normal_mode cf fuel n ws paths i k = Val (w, y) ->
  exists o0, new_org cf = Val o0 /\
   ((load_files cf paths o0 = Val None /\ w = "" /\ y = inr TAbort) \/
    exists o1 v, load_files cf paths o0 = Val (Some o1) /\ steps k (start o1 i) = Val (v, y) /\ w = (header paths ++ v)%string).
Proof.
  unfold normal_mode. destruct (new_org cf) as [o0| |]; cbn [bind]; try discriminate.
  intros H. exists o0. split; [reflexivity|].
  destruct (load_files cf paths o0) as [[o1|]| |]; cbn [bind] in H; try discriminate H.
  - right. fold (start o1 i) in H. destruct (steps k (start o1 i)) as [[v y']| |] eqn:S; cbn [bind] in H; try discriminate H.
    exists o1, v. split; [reflexivity|].
    assert (E : w = (header paths ++ v)%string /\ y' = y).
    { apply (f_equal (fun x => match x with Val p => (fst p, snd p) | _ => ("", inr TQuit) end)) in H. cbn [fst snd] in H.
      pose proof (f_equal fst H) as H1. pose proof (f_equal snd H) as H2. cbn [fst snd] in H1, H2. split; [|exact H2].
      unfold header. rewrite <- H1. now rewrite sapp_assoc. }
    destruct E as [-> ->]. now split.
  - left. injection H as <- <-. auto.
Qed.
End Ends.

(** --- histories --- *)
Lemma load_files_session cf paths : forall o P s o1, session cf o P s -> load_files cf paths o = Val (Some o1) ->
  exists P' s', session cf o1 P' s' /\ (P' = P \/ exists p, In p paths /\ parse_program p = Some (COk P')) /\ (s = QNone -> s' = QNone).
Proof.
  induction paths as [|p ps IH]; intros o P s o1 HS H; cbn in H.
  - injection H as <-. exists P, s. auto.
  - destruct (load_program cf p o) as [[lr o2]|] eqn:L; [|discriminate H].
    destruct lr as [|ce|]; [| |discriminate H].
    + assert (exists cs, parse_program p = Some (COk cs)) as [cs Pc].
      { unfold load_program in L. destruct (parse_program p) as [[cs| |]|]; try discriminate L. now exists cs. }
      destruct (IH _ _ _ _ (ss_program _ _ _ _ _ _ _ HS Pc L) H) as (P' & s' & A & B & C). exists P', s'. split; [exact A|]. split.
      * right. destruct B as [->|(p' & B1 & B2)]; [exists p; split; [now left|exact Pc]|exists p'; split; [now right|exact B2]].
      * intros ->. now apply C.
    + destruct (IH _ _ _ _ (ss_program_err _ _ _ _ _ _ _ HS L ltac:(discriminate)) H) as (P' & s' & A & B & C). exists P', s'. split; [exact A|]. split.
      * destruct B as [->|(p' & B1 & B2)]; [now left|right; exists p'; split; [now right|exact B2]].
      * exact C.
Qed.
Lemma load_files_rejected cf paths o : (forall p, In p paths -> exists e, parse_program p = Some (CErr e)) ->
  load_files cf paths o = Val (Some o).
Proof.
  induction paths as [|p ps IH]; cbn; intros H; [reflexivity|]. destruct (H p (or_introl eq_refl)) as [e E].
  unfold load_program. rewrite E. apply IH. intros q Hq. apply H. now right.
Qed.
Lemma query_fresh cf o P s t lr o1 : session cf o P s -> load_query cf t o = Some (lr, o1) ->
  exists s', session cf o1 P s' /\ s' <> QStale /\
    (lr = LOk -> exists q, parse_query (append_dot t) = Some (COk q) /\ s' = QFresh q) /\ (lr <> LOk -> s' = QNone /\ o_queue o1 = []).
Proof.
  intros HS L. assert (D : lr = LOk \/ lr <> LOk) by (destruct lr; [left|right|right]; congruence). destruct D as [->|NE].
  - assert (exists q, parse_query (append_dot t) = Some (COk q)) as [q Pq].
    { unfold load_query in L. destruct (parse_query (append_dot t)) as [[q| |]|]; try discriminate L. now exists q. }
    exists (QFresh q). split; [eapply ss_query; eauto|]. split; [discriminate|]. split; [eauto|congruence].
  - exists QNone. split; [eapply ss_query_err; eauto|]. split; [discriminate|]. split; [congruence|]. intros _. split; [reflexivity|].
    unfold load_query in L. destruct (parse_query (append_dot t)) as [[q|e|]|]; try discriminate L.
    + destruct (compile_query cf q (o_sto o)) as [[r|e|] sto]; injection L as <- <-; try congruence; reflexivity.
    + injection L as <- <-. reflexivity.
    + injection L as <- <-. reflexivity.
Qed.
Lemma asks_run cf o rs o' : asks cf o rs o' -> ~ In ROutOfMemory rs -> exists rs', run cf o rs' o' /\ map fst rs' = rs.
Proof.
  induction 1 as [o|o rs o1 fuel n w r o2 A IH G]; intros N.
  - exists []. split; [constructor|reflexivity].
  - destruct IH as (rs' & R & E); [intros H; apply N, in_or_app; now left|].
    exists (rs' ++ [(r, o_stats o2)]). split; [|now rewrite map_app, E].
    econstructor; eauto. intros ->. apply N, in_or_app. right. now left.
Qed.
Lemma asks_session cf o rs o' P s : asks cf o rs o' -> session cf o P s -> s <> QStale -> ~ In ROutOfMemory rs ->
  exists s', session cf o' P s' /\ s' <> QStale.
Proof.
  induction 1 as [o|o rs o1 fuel n w r o2 A IH G]; intros HS NS N; [eauto|].
  destruct (IH HS NS) as (s1 & H1 & N1); [intros H; apply N, in_or_app; now left|].
  exists (q_run s1). split; [|destruct s1; cbn; congruence]. eapply ss_answer; eauto. intros ->. apply N, in_or_app. right. now left.
Qed.
Lemma asks_empty cf o rs o' : asks cf o rs o' -> o_queue o = [] -> o' = o /\ forall r, In r rs -> r = RFalse.
Proof.
  induction 1 as [o|o rs o1 fuel n w r o2 A IH G]; intros Q; [split; [reflexivity|intros r []]|].
  destruct (IH Q) as [-> F]. unfold get_answer in G. destruct n; [discriminate G|]. cbn in G. rewrite Q in G. injection G as <- <-.
  split; [reflexivity|]. intros r Hr. apply in_app_or in Hr as [Hr|[<-|[]]]; auto.
Qed.
(** Every query of a dialogue: either it is loaded and the results are those of a run of it, or it is rejected and there are none. *)
Lemma dialogue_sessions cf o l o' P s : dialogue cf o l o' -> session cf o P s ->
  (forall t rs, In (t, rs) l -> ~ In ROutOfMemory rs) ->
  (exists s', session cf o' P s') /\
  forall t rs, In (t, rs) l -> exists o1,
    (exists q rs' o2, parse_query (append_dot t) = Some (COk q) /\ session cf o1 P (QFresh q) /\ run cf o1 rs' o2 /\ map fst rs' = rs) \/
    (session cf o1 P QNone /\ forall r, In r rs -> r = RFalse).
Proof.
  induction 1 as [o|o l o1 t lr o2 r rs o3 D IH L NE A]; intros HS N.
  - split; [eauto|intros t rs []].
  - destruct (IH HS) as [(s1 & H1) K]; [intros t' rs' H; apply (N t'), in_or_app; now left|].
    assert (Nr : ~ In ROutOfMemory (r :: rs)) by (apply (N t), in_or_app; right; now left).
    destruct (query_fresh _ _ _ _ _ _ _ H1 L) as (s2 & H2 & N2 & Ok & Er).
    destruct (asks_session _ _ _ _ _ _ A H2 N2 Nr) as (s3 & H3 & _). split; [eauto|].
    intros t' rs' Hin. apply in_app_or in Hin as [Hin|[Hin|[]]]; [auto|]. injection Hin as <- <-. exists o2.
    assert (Dl : lr = LOk \/ lr <> LOk) by (destruct lr; [left|right|right]; congruence). destruct Dl as [E|E].
    + left. destruct (Ok E) as (q & Pq & ->). destruct (asks_run _ _ _ _ A Nr) as (rs' & R & M). exists q, rs', o3. auto.
    + right. destruct (Er E) as [-> Q]. split; [exact H2|]. apply (asks_empty _ _ _ _ A Q).
Qed.

(** --- the end of the input --- *)
Lemma no_text_query cf o : exists e, load_query cf "" o = Some (LErr e, set_stats (set_queue o []) 0).
Proof. unfold load_query. destruct (parse_query (append_dot "")) as [[q|e|]|] eqn:E; vm_compute in E; try discriminate E. eauto. Qed.
Lemma eof_forever cf fuel n ws k : forall s, t_cur s = "" -> t_show s = None -> i_good (t_in s) = false ->
  exists v s', tsteps cf fuel (S n) ws k s = Val (v, inl s').
Proof.
  induction k as [|k IH]; intros s C Sh G; cbn [tsteps]; [eauto|].
  unfold tstep. rewrite Sh. unfold at_prompt, getline. rewrite G, C. cbn [String.eqb].
  destruct (no_text_query cf (t_org s)) as [e ->].
  unfold get_answer. cbn -[load_query tsteps].
  assert (Gi : i_good (ignore (t_in s)) = false) by (unfold ignore; rewrite G; exact G).
  destruct (IH (back s (ignore (t_in s)) "" (set_stats (set_queue (t_org s) []) 0)) eq_refl eq_refl Gi) as (v & s' & E).
  rewrite E. cbn [bind]. eexists. eexists. reflexivity.
Qed.
Lemma no_input cf o fuel n ws k : new_org cf = Val o -> exists w s, normal_mode cf fuel (S n) ws [] "" k = Val (w, inl s).
Proof.
  intros N. unfold normal_mode. rewrite N. cbn [bind load_files].
  assert (exists v s, tsteps cf fuel (S n) ws k (start o "") = Val (v, inl s)) as (v & s & E).
  { destruct k as [|k]; [cbn; eauto|]. cbn [tsteps].
    unfold tstep. cbn [start t_show]. unfold at_prompt, getline. cbn [i_good i_rest break_at t_in start]. cbn [String.eqb].
    cbn [t_org start]. destruct (no_text_query cf o) as [e ->]. unfold get_answer. cbn -[load_query tsteps].
    match goal with |- context [tsteps cf fuel (S n) ws k ?x] => destruct (eof_forever cf fuel n ws k x eq_refl eq_refl eq_refl) as (v & s' & E) end.
    rewrite E. cbn [bind]. eexists. eexists. reflexivity. }
  fold (start o ""). rewrite E. cbn [bind]. eexists. eexists. reflexivity.
Qed.
