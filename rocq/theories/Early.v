(** The page before and after the WebAssembly runtime is there.
    Model: main.js 1-77 and InterpreterHandler.js 15-27 over the editors and the alert of Editors.v. Of JavaScript: a call of a value that is not a function throws a TypeError; an exception
    that no try around the call catches ends the handler of the event and leaves everything done before as it is. The scripts have been executed (clicks before that find no handler). *)
From Verif Require Import Base Machine Compiler Print Parser Organizer Examples Alert Editors.
Open Scope string_scope.
Open Scope list_scope.

(** what the global name alert stands for: the function of the browser, or an object of the class Alert *)
Inductive value := Browser | Object.
Record window := { w_alert : value; w_dialogs : list string; w_ready : bool; w_ui : ui }.
(** main.js 12: [var alert = new Alert();] at the top level assigns the property of the window *)
Definition run_main (w : window) : window := {| w_alert := Object; w_dialogs := w_dialogs w; w_ready := false; w_ui := w_ui w |}.
Definition window0 (p q : string) : window := run_main {| w_alert := Browser; w_dialogs := []; w_ready := false; w_ui := fresh_ui p q |}.
Definition with_ui (w : window) (u : ui) : window := {| w_alert := w_alert w; w_dialogs := w_dialogs w; w_ready := w_ready w; w_ui := u |}.
(** a value or an exception, with the window left *)
Inductive effect := Done (w : window) | Thrown (w : window).
Definition left_of (e : effect) : window := match e with Done w => w | Thrown w => w end.
(** the call alert(text) *)
Definition call_alert (text : string) (w : window) : effect :=
  match w_alert w with
  | Browser => Done {| w_alert := w_alert w; w_dialogs := w_dialogs w ++ [text]; w_ready := w_ready w; w_ui := w_ui w |}
  | Object => Thrown w
  end.
Definition wait_text : string := "Please wait until Prolog BFS is loaded and try again. This might take a second.".
(** the call alert.show(text) within the catch of main.js 70-73; the function of the browser has no show *)
Definition show_alert (text : string) (w : window) : effect :=
  match w_alert w with Browser => Thrown w | Object => Done (with_ui w (say (w_ui w) (Some text))) end.
(** main.js 58-77: a new InterpreterHandler (15-27), outside the try; if the runtime is there the rest is as in Editors.v. After the dialog of the browser the object would have no
    interpreter, and tryExecute would throw within the try. *)
Definition on_run (cf : cfg) (what : spirit) (w : window) : out effect :=
  if w_ready w then u <- step cf what Run (w_ui w) ;; Val (Done (with_ui w u))
  else Val match call_alert wait_text w with Thrown w1 => Thrown w1 | Done w1 => show_alert (al_text escaped) w1 end.
(** main.js 38-42, and the events of Editors.v *)
Inductive happening := Ready | Other (e : event).
Definition happens (cf : cfg) (what : spirit) (h : happening) (w : window) : out window :=
  match h with
  | Ready => Val {| w_alert := w_alert w; w_dialogs := w_dialogs w; w_ready := true; w_ui := w_ui w |}
  | Other Run => e <- on_run cf what w ;; Val (left_of e)
  | Other e => u <- step cf what e (w_ui w) ;; Val (with_ui w u)
  end.
Fixpoint course (cf : cfg) (what : spirit) (hs : list happening) (w : window) : out window :=
  match hs with [] => Val w | h :: hs' => w1 <- happens cf what h w ;; course cf what hs' w1 end.

(** the events without the clicks on Run that came too early *)
Fixpoint in_time (ready : bool) (hs : list happening) : list event :=
  match hs with
  | [] => []
  | Ready :: hs' => in_time true hs'
  | Other Run :: hs' => if ready then Run :: in_time ready hs' else in_time ready hs'
  | Other e :: hs' => e :: in_time ready hs'
  end.
Definition page_ui (x : out window) : out (ui * list string) := match x with Val w => Val (w_ui w, w_dialogs w) | Ub u => Ub u | Fuel => Fuel end.
Lemma course_in_time cf what hs : forall w, w_alert w = Object ->
  page_ui (course cf what hs w) = (u <- steps cf what (in_time (w_ready w) hs) (w_ui w) ;; Val (u, w_dialogs w)).
Proof.
  induction hs as [|h hs IH]; intros w A; cbn [course in_time steps bind page_ui]; [reflexivity|].
  destruct h as [|[|e t|]]; cbn [happens].
  - cbn [bind]. rewrite IH by exact A. reflexivity.
  - unfold on_run. destruct (w_ready w) eqn:Ew.
    + cbn [steps]. destruct (step cf what Run (w_ui w)) as [u|x|]; cbn [bind left_of page_ui]; try reflexivity. rewrite IH by exact A. cbn [with_ui w_ready w_ui w_dialogs]. now rewrite Ew.
    + unfold call_alert. rewrite A. cbn [bind left_of]. rewrite IH by exact A. now rewrite Ew.
  - cbn [steps]. destruct (step cf what (Edit e t) (w_ui w)) as [u|x|]; cbn [bind page_ui]; try reflexivity. rewrite IH by exact A. reflexivity.
  - cbn [steps]. destruct (step cf what Close (w_ui w)) as [u|x|]; cbn [bind page_ui]; try reflexivity. rewrite IH by exact A. reflexivity.
Qed.
Lemma course_object cf what hs : forall w w', w_alert w = Object -> course cf what hs w = Val w' -> w_alert w' = Object.
Proof.
  induction hs as [|h hs IH]; intros w w' A E; cbn [course] in E; [injection E as <-; exact A|].
  destruct (happens cf what h w) as [w1|x|] eqn:H; try discriminate E. cbn [bind] in E. refine (IH w1 w' _ E). clear E IH.
  destruct h as [|[|e t|]]; cbn [happens] in H.
  - injection H as <-. exact A.
  - unfold on_run in H. destruct (w_ready w).
    + destruct (step cf what Run (w_ui w)) as [u|x|]; try discriminate H. injection H as <-. exact A.
    + unfold call_alert in H. rewrite A in H. injection H as <-. exact A.
  - injection H as <-. exact A.
  - injection H as <-. exact A.
Qed.
Lemma course_app cf what hs ks : forall w, course cf what (hs ++ ks) w = (w1 <- course cf what hs w ;; course cf what ks w1).
Proof.
  induction hs as [|h hs IH]; intros w; cbn [course app bind]; [reflexivity|]. destruct (happens cf what h w) as [w1|x|]; cbn [bind]; auto.
Qed.
Lemma never_ready cf what hs : forall w w', course cf what hs w = Val w' -> ~ In Ready hs -> w_ready w' = w_ready w.
Proof.
  induction hs as [|h hs IH]; intros w w' E N; cbn [course] in E; [injection E as <-; reflexivity|].
  destruct (happens cf what h w) as [w1|x|] eqn:H; try discriminate E. cbn [bind] in E. rewrite (IH w1 w' E (fun K => N (or_intror K))). clear E IH.
  destruct h as [|[|e t|]]; cbn [happens] in H; [now elim N; left| | |].
  - unfold on_run in H. destruct (w_ready w) eqn:R.
    + destruct (step cf what Run (w_ui w)) as [u|x|]; try discriminate H. injection H as <-. exact R.
    + unfold call_alert in H. destruct (w_alert w); injection H as <-; exact R.
  - injection H as <-. reflexivity.
  - injection H as <-. reflexivity.
Qed.
(** an early click throws and changes nothing *)
Theorem early_nothing cf what p q hs w : course cf what hs (window0 p q) = Val w -> ~ In Ready hs ->
  on_run cf what w = Val (Thrown w) /\ course cf what (hs ++ [Other Run]) (window0 p q) = Val w.
Proof.
  intros E N. pose proof (never_ready _ _ _ _ _ E N) as R. pose proof (course_object cf what hs (window0 p q) w eq_refl E) as A. cbn in R.
  assert (X : on_run cf what w = Val (Thrown w)) by (unfold on_run; rewrite R; unfold call_alert; rewrite A; reflexivity).
  split; [exact X|]. rewrite course_app, E. cbn [bind course happens]. rewrite X. reflexivity.
Qed.
(** the page is that of Editors.v without the early clicks; there are no dialogs *)
Theorem early_dropped cf what p q hs w : course cf what hs (window0 p q) = Val w ->
  steps cf what (in_time false hs) (fresh_ui p q) = Val (w_ui w) /\ w_dialogs w = [].
Proof.
  intros E. pose proof (course_in_time cf what hs (window0 p q) eq_refl) as H. rewrite E in H. cbn [page_ui window0 run_main w_ready w_ui w_dialogs] in H.
  destruct (steps cf what (in_time false hs) (fresh_ui p q)) as [u|x|]; try discriminate H. cbn [bind] in H. injection H as H1 H2. rewrite H1, H2. auto.
Qed.
Lemma early_case : let hs := [Other Run; Other (Edit Query "p("); Other Run; Ready; Other Run] in
  exists w1 w2, course cfg0 spirit0 (firstn 3 hs) (window0 "p(a)." "p(X)") = Val w1 /\ u_alert (w_ui w1) = None /\ w_dialogs w1 = [] /\
    course cfg0 spirit0 hs (window0 "p(a)." "p(X)") = Val w2 /\ u_alert (w_ui w2) <> None.
Proof. cbv zeta. do 2 eexists. split; [vm_compute; reflexivity|]. split; [reflexivity|]. split; [reflexivity|]. split; [vm_compute; reflexivity|discriminate]. Qed.
