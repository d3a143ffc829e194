(** The lines and the texts shown with the nodes and the edges of the unification tree in the web page. *)
From Verif Require Import Base Machine Heap Compiler Parser Print Organizer Examples Spec Session LockHist Positions OrgAt RunAt Tree TipAt TipLoad DrawText.
Open Scope string_scope.
Open Scope list_scope.

(** C70. [watched cf o P (Some q)]: [o] came about by calls of the public interface, none of which ran out of memory; [P] and [q] are the
    program and the query loaded last, with their positions in the text (C60), and [q] after [P]. [qtips o P q t]: from the top of the
    tree [t] down, every node is the one of a goal, every branch below it the one of a clause for it, in the order of the text; the
    position shown ([position]) with a node whose goal was called is that of this goal, the position shown with a branch is that of the head of
    its clause. A node whose goal was not called yet shows the position of this goal or none. *)
Theorem C70_positions_partial cf o P q fuel t : watched cf o P (Some q) -> make_tree fuel (plain o) = Val t -> qtips o P q t.
Proof. exact (watched_tips cf o P q fuel t). Qed.
Print Assumptions C70_positions_partial.
Example C70_hypotheses_met : exists o P q t, watched cfg0 o P (Some q) /\ make_tree 100 (plain o) = Val t /\
  qtitles o t =
    [Some "Line 1: p(X)"; Some "Line 1: p(X)"; Some "Line 1: r(X)"; Some "Line 1: r(a)"; Some "Line 1: r(X)"; Some "Line 1: r(a)";
     Some "Line 1: q(X)"; Some "Line 2: q( a )"; Some "Line 1: Y is 1+1"; Some "built-in predicate: Lhs is Rhs";
     Some "Line 1: p(X)"; Some "Line 1: t(X)"; Some "Line 2: t(a)"; Some "Line 1: q(X)"; Some "Line 2: q( a )"; Some "Line 1: Y is 1+1";
     Some "built-in predicate: Lhs is Rhs"].
Proof. exact (titles_look _ _ _ _ tips_case). Qed.
(** In full it is false: there are nodes without a position, after the last goal of a clause with permanent variables (compiler.cpp 572-580).
    The page then shows a line number that was never set, and an empty text. *)
Theorem C70_refuted : exists o P q t ex, watched cfg0 o P (Some q) /\ make_tree 100 (plain o) = Val t /\ In ex (goal_execs t) /\ position o ex = None.
Proof. exact (unset_look _ _ _ tips_lost). Qed.
Print Assumptions C70_refuted.

(** What the page makes of a position ([tip]), and of those of the built-in predicates. *)
Theorem C70_text i : tip i =
  (if (i_begin i =? 1696969)%N then "built-in predicate: " ++ i_text i else "Line " ++ string_of_Z (Z.of_N (i_begin i)) ++ ": " ++ i_text i)%string.
Proof. exact (tip_form i). Qed.
Print Assumptions C70_text.
Theorem C70_built_in P :
  map tips_of (clauses_at P (FV "is" 2)) = [["built-in predicate: Lhs is Rhs"]] /\
  map tips_of (clauses_at P (FV "==" 2)) = [["built-in predicate: Lhs == Rhs"]] /\
  map tips_of (clauses_at P (FV "\==" 2)) = [["built-in predicate: Lhs \== Rhs"]] /\
  map tips_of (clauses_at P (FV "append" 3)) = [["built-in predicate: append([], List2, List2)"];
    ["built-in predicate: append([X | Xs], Ys, [X | Rs])"; "built-in predicate: append(Xs, Ys, Rs)"]].
Proof. exact (built_in_tips P). Qed.
Print Assumptions C70_built_in.
Example C70_text_case : tip {| i_begin := 12; i_end := 12; i_text := "q( a )" |} = "Line 12: q( a )".
Proof. reflexivity. Qed.
