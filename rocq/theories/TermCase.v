(** Dialogues at the terminal, and the theorems on it put together. *)
From Verif Require Import Base Machine Heap Compiler Parser Print Organizer Session Runs Examples Terminal TermFacts.
Open Scope string_scope.
Open Scope list_scope.

Lemma dialogue_shown cf fuel n ws paths input k w s : normal_mode cf fuel n ws paths input k = Val (w, inl s) -> t_show s = None ->
  exists o0 o1 l, new_org cf = Val o0 /\ load_files cf paths o0 = Val (Some o1) /\ dialogue cf o1 l (t_org s) /\
    w = (header paths ++ dialogue_text l)%string /\ (i_good (t_in s) = true -> typed input l (i_rest (t_in s))).
Proof.
  intros H Sh. destruct (normal_mode_split _ _ _ _ _ _ _ _ _ H) as (o0 & N & [(_ & _ & E)|(o1 & v & L & S & ->)]); [discriminate E|].
  destruct (steps_reached _ _ _ _ _ _ _ _ _ _ _ _ (start_reached cf o1 input) S) as (l & D & T & R).
  unfold pending in T. rewrite Sh in T, R. rewrite sapp_nil in T. exists o0, o1, l. repeat split; auto. now rewrite T.
Qed.
Lemma queries_shown cf fuel n ws paths input k w s : normal_mode cf fuel n ws paths input k = Val (w, inl s) -> t_show s = None ->
  exists o1 l P, dialogue cf o1 l (t_org s) /\ w = (header paths ++ dialogue_text l)%string /\
    (P = [] \/ exists p, In p paths /\ parse_program p = Some (COk P)) /\
    ((forall t rs, In (t, rs) l -> ~ In ROutOfMemory rs) -> forall t rs, In (t, rs) l -> exists o,
      (exists q rs' o', parse_query (append_dot t) = Some (COk q) /\ session cf o P (QFresh q) /\ run cf o rs' o' /\ map fst rs' = rs) \/
      (session cf o P QNone /\ forall r, In r rs -> r = RFalse)).
Proof.
  intros H Sh. destruct (dialogue_shown _ _ _ _ _ _ _ _ _ H Sh) as (o0 & o1 & l & N & L & D & W & _).
  destruct (load_files_session _ _ _ _ _ _ (ss_new _ _ N) L) as (P & s1 & HS & HP & _).
  exists o1, l, P. repeat split; auto. intros M. apply (dialogue_sessions _ _ _ _ _ _ D HS M).
Qed.
Lemma aborts_only cf fuel n ws paths input k w : normal_mode cf fuel n ws paths input k = Val (w, inr TAbort) ->
  exists o0, new_org cf = Val o0 /\
  (load_files cf paths o0 = Val None \/
   exists o1, load_files cf paths o0 = Val (Some o1) /\
     ((exists l o t o2, dialogue cf o1 l o /\ load_query cf t o = Some (LEscape, o2) /\ w = (header paths ++ dialogue_text l ++ "?- ")%string) \/
      (exists l t rs b r o2, dialogue cf o1 (l ++ [(t, rs ++ [RAnswer b; r])]) o2 /\ b <> [] /\ explain r <> None /\
         w = (header paths ++ dialogue_text (l ++ [(t, rs ++ [RAnswer b; r])]%list))%string))).
Proof.
  intros H. destruct (normal_mode_split _ _ _ _ _ _ _ _ _ H) as (o0 & N & [(L & _ & _)|(o1 & v & L & S & ->)]); exists o0; split; auto.
  right. exists o1. split; [exact L|].
  destruct (steps_end _ _ _ _ _ _ _ _ _ _ _ _ (start_reached cf o1 input) ltac:(discriminate) S) as (l & w1 & s1 & v1 & R & _ & St & E).
  cbn [String.append] in E. subst v.
  destruct (abort_step _ _ _ _ _ _ _ _ _ _ R St) as [(t & o2 & D & Q & W)|(l' & t & rs & b & r & o2 & D & B & X & W)].
  - left. exists l, (t_org s1), t, o2. rewrite W. auto.
  - right. exists l', t, rs, b, r, o2. rewrite W. auto.
Qed.
Lemma quits cf fuel n ws paths input k w : normal_mode cf fuel n ws paths input k = Val (w, inr TQuit) ->
  exists o0 o1 o2 l, new_org cf = Val o0 /\ load_files cf paths o0 = Val (Some o1) /\ dialogue cf o1 l o2 /\
    w = (header paths ++ dialogue_text l ++ "?- ")%string /\ (typed input l "q" \/ exists rest, typed input l ("q." ++ rest)).
Proof.
  intros H. destruct (normal_mode_split _ _ _ _ _ _ _ _ _ H) as (o0 & N & [(_ & _ & E)|(o1 & v & L & S & ->)]); [discriminate E|].
  destruct (steps_end _ _ _ _ _ _ _ _ _ _ _ _ (start_reached cf o1 input) ltac:(discriminate) S) as (l & w1 & s1 & v1 & R & Nq & St & E).
  cbn [String.append] in E. subst v.
  destruct (quit_step _ _ _ _ _ _ _ _ _ _ R Nq St) as (-> & D & T & Ty). exists o0, o1, (t_org s1), l. rewrite T. auto.
Qed.

(** --- cases --- *)
Definition output (x : out (string * (tstate + tend))) : option (string * option tend) :=
  match x with Val (w, inl s) => match t_show s with None => if i_good (t_in s) then Some (w, None) else None | Some _ => None end | Val (w, inr e) => Some (w, Some e) | _ => None end.
Lemma output_end x w e : output x = Some (w, Some e) -> x = Val (w, inr e).
Proof. destruct x as [[v [s|y]]| |]; cbn; try discriminate; [|intros [= <- <-]; reflexivity]. destruct (t_show s); [discriminate|]. destruct (i_good (t_in s)); discriminate. Qed.
Lemma output_prompt x w : output x = Some (w, None) -> exists s, t_show s = None /\ i_good (t_in s) = true /\ x = Val (w, inl s).
Proof.
  destruct x as [[v [s|y]]| |]; cbn; try discriminate. destruct (t_show s) eqn:E; [discriminate|]. destruct (i_good (t_in s)) eqn:G; [|discriminate].
  intros [= <-]. eauto.
Qed.
Lemma files_not_read : exists path contents o o1 o2 o3 k s,
  new_org cfg0 = Val o /\ load_program cfg0 contents o = Some (LOk, o1) /\ load_query cfg0 "p(X)" o1 = Some (LOk, o2) /\
  get_answer cfg0 100 100 w0 o2 = Val (RAnswer [("X", "a")], o3) /\
  normal_mode cfg0 100 100 (fun _ => w0) [path] ("p(X)." ++ nl) k = Val ((header [path] ++ "?- false" ++ nl)%string, inl s).
Proof.
  exists "prog.pl", "p(a).".
  destruct (new_org cfg0) as [o| |] eqn:N; try (vm_compute in N; discriminate N).
  destruct (load_program cfg0 "p(a)." o) as [[lr o1]|] eqn:L; [|vm_compute in N; injection N as <-; vm_compute in L; discriminate L].
  destruct (load_query cfg0 "p(X)" o1) as [[qr o2]|] eqn:Q.
  2: { vm_compute in N; injection N as <-; vm_compute in L; injection L as <- <-; vm_compute in Q; discriminate Q. }
  destruct (get_answer cfg0 100 100 w0 o2) as [[r o3]| |] eqn:G.
  2, 3: vm_compute in N; injection N as <-; vm_compute in L; injection L as <- <-; vm_compute in Q; injection Q as <- <-; vm_compute in G; discriminate G.
  destruct (output_prompt (normal_mode cfg0 100 100 (fun _ => w0) ["prog.pl"] ("p(X)." ++ nl) 1) (header ["prog.pl"] ++ "?- false" ++ nl)) as (s & _ & _ & E);
    [vm_compute; reflexivity|].
  exists o, o1, o2, o3, 1, s. rewrite E.
  vm_compute in N; injection N as <-; vm_compute in L; injection L as <- <-; vm_compute in Q; injection Q as <- <-; vm_compute in G; injection G as <- <-.
  repeat split.
Qed.
Lemma dialogue_case : exists w s, t_show s = None /\ i_good (t_in s) = true /\
  normal_mode cfg0 100 100 (fun _ => w0) [] ("append(X,Y,[a])." ++ nl ++ ";" ++ nl ++ ";" ++ nl ++ "p(" ++ "." ++ nl ++ "X is 1//0." ++ nl) 5 = Val (w, inl s) /\
  w = (header [] ++ "?- [X / []]" ++ nl ++ "[Y / [a]][X / [a]]" ++ nl ++ "[Y / []]false" ++ nl ++ "?- false" ++ nl ++
       "?- error: ERROR: Arithmetic: evaluation error: zero_divisor" ++ nl)%string.
Proof.
  eexists. match goal with |- exists s, _ /\ _ /\ ?x = _ /\ _ => assert (exists w, output x = Some (w, None) /\ w = (header [] ++ "?- [X / []]" ++ nl ++ "[Y / [a]][X / [a]]" ++ nl ++ "[Y / []]false" ++ nl ++ "?- false" ++ nl ++
       "?- error: ERROR: Arithmetic: evaluation error: zero_divisor" ++ nl)%string) as (w & H & E) by (eexists; split; vm_compute; reflexivity) end.
  apply output_prompt in H as (s & A & B & C). exists s. rewrite E in C. split; [exact A|]. split; [exact B|]. split; [exact C|reflexivity].
Qed.
Lemma error_aborts : exists input k w, normal_mode cfg0 100 100 (fun _ => w0) [] input k = Val (w, inr TAbort) /\
  w = (header [] ++ "?- [W / 1]" ++ nl ++ "[Y / 1]" ++ nl ++ "[X / []]" ++ nl ++ "[Z / [0]]" ++
       "Error: ERROR: Arithmetic: evaluation error: zero_divisor" ++ nl)%string.
Proof.
  exists ("append(X,[Y|Z],[1,0]), W is 1//Y." ++ nl ++ ";" ++ nl)%string, 5, (header [] ++ "?- [W / 1]" ++ nl ++ "[Y / 1]" ++ nl ++ "[X / []]" ++ nl ++ "[Z / [0]]" ++
       "Error: ERROR: Arithmetic: evaluation error: zero_divisor" ++ nl)%string. split; [|reflexivity]. apply output_end. vm_compute. reflexivity.
Qed.
Lemma never_ends : exists input, forall k, exists w s, normal_mode cfg0 100 100 (fun _ => w0) [] input k = Val (w, inl s).
Proof.
  exists "". intros k. destruct (new_org cfg0) as [o| |] eqn:N; try (vm_compute in N; discriminate N). exact (no_input cfg0 o 100 99 _ k N).
Qed.
Lemma quit_case : exists w, normal_mode cfg0 100 100 (fun _ => w0) [] ("append(X,Y,[a])." ++ nl ++ ";" ++ nl ++ "x" ++ nl ++ "q.") 4 = Val (w, inr TQuit).
Proof.
  eexists. apply output_end. vm_compute. reflexivity.
Qed.
