(** Concrete sessions, used beside the theorems to show that their hypotheses are met. *)
From Verif Require Import Base Machine Heap Compiler Parser Print Organizer Examples Process Session Search Order Runs.
Open Scope string_scope.
Open Scope list_scope.

Lemma loaded_session program query o cs q : loaded program query = Some o ->
  parse_program program = Some (COk cs) -> parse_query (append_dot query) = Some (COk q) ->
  session cfg0 o cs (QFresh q).
Proof.
  unfold loaded. intros E Ep Eq.
  destruct (new_org cfg0) as [o0| |] eqn:E0; try discriminate.
  destruct (load_program cfg0 program o0) as [[[] o1]|] eqn:E1; try discriminate.
  destruct (load_query cfg0 query o1) as [[[] o2]|] eqn:E2; try discriminate. injection E as <-.
  eapply ss_query; [|eassumption|eassumption]. eapply (ss_program _ _ _ QNone); [|eassumption|eassumption].
  now apply ss_new.
Qed.

(** repeated get_answer with given worlds *)
Fixpoint calls (ws : list world) (o : org) : option (list (res * Z) * org) :=
  match ws with
  | [] => Some ([], o)
  | w :: ws' =>
      match get_answer cfg0 1000 1000 w o with
      | Val (ROutOfMemory, _) => None
      | Val (r, o') => match calls ws' o' with Some (rs, o2) => Some ((r, o_stats o') :: rs, o2) | None => None end
      | _ => None
      end
  end.
Lemma run_app cf o rs o1 rs' o2 : run cf o rs o1 -> run cf o1 rs' o2 -> run cf o (rs ++ rs') o2.
Proof.
  intros H1 H2. revert rs H1. induction H2 as [o1|o1 rs' o2 t H2 IH|o1 rs' o2 fuel n w r o3 H2 IH E Hr]; intros rs H1.
  - now rewrite app_nil_r.
  - apply run_limit. now apply IH.
  - rewrite app_assoc. eapply run_answer; eauto.
Qed.
Lemma calls_run ws : forall o rs o', calls ws o = Some (rs, o') -> run cfg0 o rs o'.
Proof.
  induction ws as [|w ws IH]; intros o rs o' E; cbn [calls] in E.
  - injection E as <- <-. constructor.
  - destruct (get_answer cfg0 1000 1000 w o) as [[r o1]| |] eqn:Eg; try discriminate.
    assert (G : forall x, calls ws o1 = Some x -> r <> ROutOfMemory -> run cfg0 o ((r, o_stats o1) :: fst x) (snd x)).
    { intros [rs1 o2] Ec Hr. apply (run_app cfg0 o [(r, o_stats o1)] o1).
      - change [(r, o_stats o1)] with ([] ++ [(r, o_stats o1)]). eapply run_answer; [constructor|eassumption|assumption].
      - now apply IH. }
    destruct (calls ws o1) as [[rs1 o2]|] eqn:Ec; [|destruct r; discriminate].
    destruct r; try discriminate; injection E as <- <-; apply (G _ eq_refl); discriminate.
Qed.

(** a clock that stops every call in turn 2 *)
Definition w_slow : world := {| w_time := fun k => if Nat.ltb 1 k then 1000000%Z else 0%Z; w_oom := fun _ => false |}.

Lemma run_witness program query ws rs : 
  match loaded program query, parse_program program, parse_query (append_dot query) with
  | Some o, Some (COk _), Some (COk _) => match calls ws o with Some (rs', _) => rs' = rs | None => False end
  | _, _, _ => False
  end ->
  exists o P q o', session cfg0 o P (QFresh q) /\ run cfg0 o rs o' /\
    parse_program program = Some (COk P) /\ parse_query (append_dot query) = Some (COk q).
Proof.
  destruct (loaded program query) as [o|] eqn:E1; [|contradiction].
  destruct (parse_program program) as [[cs| |]|] eqn:E2; try contradiction.
  destruct (parse_query (append_dot query)) as [[q| |]|] eqn:E3; try contradiction.
  destruct (calls ws o) as [[rs' o']|] eqn:E4; [|contradiction]. intros ->.
  exists o, cs, q, o'. split; [eapply loaded_session; eassumption|]. split; [eapply calls_run; eassumption|]. auto.
Qed.
