(** Clicks on Run before the WebAssembly runtime is there (C79). [course cf what hs (window0 p q)]: the page after the events [hs], among them at most [Ready], when the runtime
    gets there; [on_run]: what a click on Run does; [Thrown w]: an exception that nothing catches leaves the page [w]. *)
From Verif Require Import Base Machine Compiler Organizer Examples Alert Editors Early.
Open Scope string_scope.
Open Scope list_scope.

(** Whatever happened before, such a click throws an exception and changes nothing; *)
Theorem C79_nothing cf what p q hs w : course cf what hs (window0 p q) = Val w -> ~ In Ready hs ->
  on_run cf what w = Val (Thrown w) /\ course cf what (hs ++ [Other Run]) (window0 p q) = Val w.
Proof. exact (early_nothing cf what p q hs w). Qed.
Print Assumptions C79_nothing.
(** the page is always the one without these clicks ([in_time]), about which C73 and C74 speak, and no dialog was ever opened. *)
Theorem C79_later cf what p q hs w : course cf what hs (window0 p q) = Val w ->
  steps cf what (in_time false hs) (fresh_ui p q) = Val (w_ui w) /\ w_dialogs w = [].
Proof. exact (early_dropped cf what p q hs w). Qed.
Print Assumptions C79_later.
Example C79_hypotheses_met : let hs := [Other Run; Other (Edit Query "p("); Other Run; Ready; Other Run] in
  exists w1 w2, course cfg0 spirit0 (firstn 3 hs) (window0 "p(a)." "p(X)") = Val w1 /\ u_alert (w_ui w1) = None /\ w_dialogs w1 = [] /\
    course cfg0 spirit0 hs (window0 "p(a)." "p(X)") = Val w2 /\ u_alert (w_ui w2) <> None.
Proof. exact early_case. Qed.
(** So nothing asks to wait: no alert and no dialog. *)
Theorem C79_told_refuted : exists hs w, course cfg0 spirit0 (hs ++ [Other Run]) (window0 "p(a)." "p(X)") = Val w /\ ~ In Ready hs /\ u_alert (w_ui w) = None /\ w_dialogs w = [].
Proof. exact (ex_intro _ [] (ex_intro _ (window0 "p(a)." "p(X)") (conj eq_refl (conj (fun H => H) (conj eq_refl eq_refl))))). Qed.
Print Assumptions C79_told_refuted.
