(** Theorems about the picture of the unification tree in the web page, and about the window it is drawn in. *)
From Coq Require Import Sorting.Permutation.
From Verif Require Import Base Machine Compiler Parser Print Organizer Session Runs Clause Atoms Examples TreeRun Tree TreeFacts Draw DrawFacts Web Page PageFacts DrawCase LockHist DrawText.
Open Scope string_scope.
Open Scope list_scope.

(** C67. [draw n o t]: the nodes and edges handed to vis.js for the tree [t] ([n] bounds the work; the number of nodes is
    enough). *)
Theorem C67_drawn cf o P s q fuel t n : session cf o P s -> s = QFresh q \/ s = QStarted q -> make_tree fuel o = Val t ->
  List.length (q_pre t) <= n -> exists p, draw n o t = Val p.
Proof. intros HS Hs E L. destruct (session_draw cf o P s q fuel t n HS Hs E L) as (p & D & _). exact (ex_intro _ p D). Qed.
Print Assumptions C67_drawn.

(** It is a tree with the root 0: numbers are not used twice, every other node has exactly one edge leading to it, and that
    comes from a query node listed before it. *)
Theorem C67_tree cf o P s q fuel t n p : session cf o P s -> s = QFresh q \/ s = QStarted q -> make_tree fuel o = Val t ->
  List.length (q_pre t) <= n -> draw n o t = Val p ->
  NoDup (map v_id (p_nodes p)) /\ Permutation (0%Z :: map snd (p_edges p)) (map v_id (p_nodes p)) /\
  forall a b, In (a, b) (p_edges p) -> exists l1 v l2 w l3, p_nodes p = l1 ++ v :: l2 ++ w :: l3 /\ v_id v = a /\ v_kind v = VQuery /\ v_id w = b.
Proof.
  intros HS Hs E L D. destruct (drawn_good cf o P s q fuel t n p HS Hs E L D) as [A B C _ _ _ _ _]. exact (conj A (conj B C)).
Qed.
Print Assumptions C67_tree.

(** [drawn p P q 0]: it is the search tree of the query for the program: below a query node stand, from left to right, what
    became of the clauses for its goal in textual order; "no such rule" stands there exactly if there is no clause. *)
Theorem C67_shape cf o P s q fuel t n p : session cf o P s -> s = QFresh q \/ s = QStarted q -> make_tree fuel o = Val t ->
  List.length (q_pre t) <= n -> draw n o t = Val p -> drawn p P q 0.
Proof. intros HS Hs E L D. exact (gp_shape _ _ _ _ _ (drawn_good cf o P s q fuel t n p HS Hs E L D)). Qed.
Print Assumptions C67_shape.

(** The query nodes are those of the tree, with their numbers and labels ([q_all t]). *)
Theorem C67_queries cf o P s q fuel t n p : session cf o P s -> s = QFresh q \/ s = QStarted q -> make_tree fuel o = Val t ->
  List.length (q_pre t) <= n -> draw n o t = Val p ->
  Permutation (map (fun v => (v_id v, v_label v)) (filter (fun v => match v_kind v with VQuery => true | _ => false end) (p_nodes p)))
    (map (fun x => (Z.of_nat (q_id x), label_of x)) (q_all t)).
Proof. intros HS Hs E L D. exact (gp_queries _ _ _ _ _ (drawn_good cf o P s q fuel t n p HS Hs E L D)). Qed.
Print Assumptions C67_queries.

(** The green nodes are the answers delivered so far, each as often as it was. *)
Theorem C67_answers cf o P q rs o' fuel t n p : session cf o P (QFresh q) -> run cf o rs o' -> make_tree fuel o' = Val t ->
  List.length (q_pre t) <= n -> draw n o' t = Val p ->
  Permutation (map v_label (filter (fun v => match v_kind v with VAnswer => true | _ => false end) (p_nodes p)))
    (map answer_label (filter is_answer (map fst rs))).
Proof. exact (run_draw cf o P q rs o' fuel t n p). Qed.
Print Assumptions C67_answers.

(** Their labels, *)
Theorem C67_label b : answer_label (RAnswer b) =
  match b with
  | [] => "true"
  | _ => String.concat "" (map (fun x => ("[" ++ fst x ++ " / " ++ snd x ++ "] ")%string) b)
  end.
Proof. exact (label_form b). Qed.
Print Assumptions C67_label.
(** from which the answers can be told: two answers delivered, in whatever histories, with the same label are the same. *)
Theorem C67_label_determines_answer cf1 cf2 o1 o2 cs1 cs2 b1 b2 n1 n2 : new_org cf1 = Val o1 -> new_org cf2 = Val o2 ->
  In (Val (ReplyAnswer (RAnswer b1) n1)) (play cf1 cs1 o1) -> In (Val (ReplyAnswer (RAnswer b2) n2)) (play cf2 cs2 o2) ->
  answer_label (RAnswer b1) = answer_label (RAnswer b2) -> b1 = b2.
Proof. exact (label_determines cf1 cf2 o1 o2 cs1 cs2 b1 b2 n1 n2). Qed.
Print Assumptions C67_label_determines_answer.

(** There is one node "*continue search*" for each executor in the queue, these are the nodes that react to a click, and so
    there is one as long as the search has not come to its end. *)
Theorem C67_continue cf o P s q fuel t n p : session cf o P s -> s = QFresh q \/ s = QStarted q -> make_tree fuel o = Val t ->
  List.length (q_pre t) <= n -> draw n o t = Val p ->
  List.length (p_continue p) = List.length (o_queue o) /\ forall k, In k (p_continue p) <-> kind_at p k VContinue.
Proof.
  intros HS Hs E L D. destruct (drawn_good cf o P s q fuel t n p HS Hs E L D) as [_ _ _ _ _ _ A B]. exact (conj A B).
Qed.
Print Assumptions C67_continue.

Example C67_hypotheses_met : exists o P q o' rs t, session cfg0 o P (QFresh q) /\ run cfg0 o rs o' /\
  parse_program "p(X) :- p(X). p(X) :- r(X). p(X) :- q(X). q(b). p(a)." = Some (COk P) /\
  parse_query (append_dot "q(U), p(U)") = Some (COk q) /\ map fst rs = [RAnswer [("U", "b")]] /\
  make_tree 100 o' = Val t /\ draw (List.length (q_pre t)) o' t = Val {|
    p_nodes := [nd 0 VQuery "q(U)"; nd 2 VQuery "p(b)"; nd (-1) VNotUnifiable "not unifiable"; nd 4 VQuery "p(b)"; nd (-2) VNotUnifiable "not unifiable";
      nd 13 VQuery "r(b)"; nd (-3) VNoRule "no such rule"; nd 15 VQuery "q(b)"; nd (-4) VAnswer "[U / b] ";
      nd 6 VQuery "cant determine name yet"; nd (-5) VContinue "*continue search*"; nd 8 VQuery "cant determine name yet"; nd (-6) VContinue "*continue search*";
      nd 10 VQuery "cant determine name yet"; nd (-7) VContinue "*continue search*"];
    p_edges := [(0, 2); (2, 4); (2, 13); (2, 15); (2, -1); (4, 6); (4, 8); (4, 10); (4, -2); (13, -3); (15, -4); (6, -5); (8, -6); (10, -7)]%Z;
    p_continue := [-5; -6; -7]%Z |}.
Proof. exact draw_case. Qed.

(** "not unifiable" does not mean that: the goal X is 1 // 0 fits the clause, and evaluating raised an error. *)
Theorem C67_error_refuted : exists o P q o' rs e t, session cfg0 o P (QFresh q) /\ run cfg0 o rs o' /\
  parse_query (append_dot "X is 1 // 0") = Some (COk q) /\ map fst rs = [RError e] /\
  make_tree 100 o' = Val t /\ draw (List.length (q_pre t)) o' t = Val {|
    p_nodes := [nd 0 VQuery "is(X, (1 // 0))"; nd (-1) VNotUnifiable "not unifiable"]; p_edges := [(0, -1)]%Z; p_continue := [] |}.
Proof. exact error_drawn. Qed.
Print Assumptions C67_error_refuted.

(** C68. [psteps cf es first_page]: the page after any events; [PTree i]: the button "Show tree view" of the box [i]
    ([can_open]: it is there and enabled); [pg_window]: of which box and of which state the tree is that the window shows.
    It is a tree of that box. *)
Theorem C68_window cf es p i b d : psteps cf es first_page = Val p -> nth_error (pg_boxes p) i = Some (b, d) -> can_open b = true ->
  exists p' o, pstep cf (PTree i) p = Val p' /\ pg_window p' = Some (i, o).
Proof. exact (page_window cf es p i b d). Qed.
Print Assumptions C68_window.
(** It is the present one if no timer of the box has fired, *)
Theorem C68_present_partial cf es p i b d : psteps cf es first_page = Val p -> existsb (is_timer i) es = false ->
  nth_error (pg_boxes p) i = Some (b, d) -> can_open b = true ->
  exists p', pstep cf (PTree i) p = Val p' /\ pg_window p' = Some (i, b_org b).
Proof. exact (page_current_never cf es p i b d). Qed.
Print Assumptions C68_present_partial.
(** or if after the last time one did, something made drawings outdated: Run, Next in any box, or another tree drawn. *)
Theorem C68_since_partial cf es e es' p p1 p2 i b d : psteps cf es first_page = Val p -> pstep cf e p = Val p1 -> pg_newest p < pg_newest p1 ->
  psteps cf es' p1 = Val p2 -> existsb (is_timer i) es' = false -> nth_error (pg_boxes p2) i = Some (b, d) -> can_open b = true ->
  exists p3, pstep cf (PTree i) p2 = Val p3 /\ pg_window p3 = Some (i, b_org b).
Proof. exact (page_current_since cf es e es' p p1 p2 i b d). Qed.
Print Assumptions C68_since_partial.
(** Otherwise it may be an old one: the box shows two answers, the tree that was just asked for only one of them. *)
Theorem C68_refuted : exists es p b d o, psteps cfg0 (es ++ [PTree 0]) first_page = Val p /\ nth_error (pg_boxes p) 0 = Some (b, d) /\ can_open b = true /\
  b_shown b = ["[X / a]"; "[X / b]"] /\ pg_window p = Some (0, o) /\ finals_in o = [[("X", "a")]].
Proof. exact stale_window. Qed.
Print Assumptions C68_refuted.
Example C68_hypotheses_met : exists es p p1 p2 b d, psteps cfg0 es first_page = Val p /\ existsb (is_timer 0) es = true /\ pstep cfg0 (PTree 1) p = Val p1 /\ pg_newest p < pg_newest p1 /\
  psteps cfg0 [PKill 1] p1 = Val p2 /\ nth_error (pg_boxes p2) 0 = Some (b, d) /\ can_open b = true /\ b_shown b = ["[X / a]"; "[X / b]"] /\ finals_in (b_org b) = [[("X", "a")]; [("X", "b")]].
Proof. exact fresh_since. Qed.

(** Boxes do not interfere: whatever happens on the page, a box is as if it were the only one, so C65 and C66 hold for it. *)
Theorem C68_boxes cf es p i b d : psteps cf es first_page = Val p -> nth_error (pg_boxes p) i = Some (b, d) ->
  exists v program query b0 es', run_clicked cf v program query = Val (Opened b0) /\ steps cf es' b0 = Val b.
Proof. exact (page_boxes cf es p i b d). Qed.
Print Assumptions C68_boxes.
