(** Concrete pictures and pages. *)
From Verif Require Import Base Machine Heap Facts HeapSim Compiler Parser Print Organizer Process Refine Session Search Order Runs Terms Parsed Examples Witness Finite
  Tree TreeFacts TreeCase Draw DrawFacts Web WebCase Page PageFacts.
Open Scope string_scope.
Open Scope list_scope.

Definition vnode_dec (x y : vnode) : {x = y} + {x <> y}.
Proof. decide equality; [apply string_dec|decide equality|apply Z.eq_dec]. Defined.
Definition edge_dec (x y : Z * Z) : {x = y} + {x <> y}.
Proof. decide equality; apply Z.eq_dec. Defined.
Definition picture_dec (x y : picture) : {x = y} + {x <> y}.
Proof. decide equality; [apply list_eq_dec, Z.eq_dec|apply list_eq_dec, edge_dec|apply list_eq_dec, vnode_dec]. Defined.
Definition nd (i : Z) (k : vkind) (s : string) : vnode := {| v_id := i; v_kind := k; v_label := s |}.

Definition draw_text : string := "p(X) :- p(X). p(X) :- r(X). p(X) :- q(X). q(b). p(a).".
Definition draw_picture : picture := {|
  p_nodes := [nd 0 VQuery "q(U)"; nd 2 VQuery "p(b)"; nd (-1) VNotUnifiable "not unifiable"; nd 4 VQuery "p(b)"; nd (-2) VNotUnifiable "not unifiable";
    nd 13 VQuery "r(b)"; nd (-3) VNoRule "no such rule"; nd 15 VQuery "q(b)"; nd (-4) VAnswer "[U / b] ";
    nd 6 VQuery "cant determine name yet"; nd (-5) VContinue "*continue search*"; nd 8 VQuery "cant determine name yet"; nd (-6) VContinue "*continue search*";
    nd 10 VQuery "cant determine name yet"; nd (-7) VContinue "*continue search*"];
  p_edges := [(0, 2); (2, 4); (2, 13); (2, 15); (2, -1); (4, 6); (4, 8); (4, 10); (4, -2); (13, -3); (15, -4); (6, -5); (8, -6); (10, -7)]%Z;
  p_continue := [-5; -6; -7]%Z |}.
Lemma draw_case : exists o P q o' rs t, session cfg0 o P (QFresh q) /\ run cfg0 o rs o' /\
  parse_program draw_text = Some (COk P) /\ parse_query (append_dot "q(U), p(U)") = Some (COk q) /\ map fst rs = [RAnswer [("U", "b")]] /\
  make_tree 100 o' = Val t /\ draw (List.length (q_pre t)) o' t = Val draw_picture.
Proof.
  destruct (tree_witness draw_text "q(U), p(U)" [w0] (fun o o' P q rs =>
    match rs with [(RAnswer b, _)] => pairs_eqb b [("U", "b")] | _ => false end &&
    match make_tree 100 o' with
    | Val t => match draw (List.length (q_pre t)) o' t with Val p => if picture_dec p draw_picture then true else false | _ => false end
    | _ => false
    end)) as (o & o' & P & q & rs & H1 & H2 & H3 & H4 & H5); [vm_compute; reflexivity|].
  apply andb_prop in H5. destruct H5 as [A B].
  destruct (make_tree 100 o') as [t| |] eqn:E1; try discriminate B. destruct (draw _ o' t) as [p| |] eqn:E2; try discriminate B.
  destruct (picture_dec p draw_picture) as [->|]; [|discriminate B].
  exists o, P, q, o', rs, t. csplit; auto.
  destruct rs as [|[[|b| | |] z] [|]]; try discriminate A. unfold pairs_eqb in A. destruct (list_eq_dec pair_dec b _) as [->|]; [|discriminate A]. reflexivity.
Qed.

(** the clause for is fits, and evaluating raises an error *)
Definition error_picture : picture := {|
  p_nodes := [nd 0 VQuery "is(X, (1 // 0))"; nd (-1) VNotUnifiable "not unifiable"]; p_edges := [(0, -1)]%Z; p_continue := [] |}.
Lemma error_drawn : exists o P q o' rs e t, session cfg0 o P (QFresh q) /\ run cfg0 o rs o' /\
  parse_query (append_dot "X is 1 // 0") = Some (COk q) /\ map fst rs = [RError e] /\
  make_tree 100 o' = Val t /\ draw (List.length (q_pre t)) o' t = Val error_picture.
Proof.
  destruct (tree_witness "a." "X is 1 // 0" [w0] (fun o o' P q rs =>
    match rs with [(RError _, _)] => true | _ => false end &&
    match make_tree 100 o' with
    | Val t => match draw (List.length (q_pre t)) o' t with Val p => if picture_dec p error_picture then true else false | _ => false end
    | _ => false
    end)) as (o & o' & P & q & rs & H1 & H2 & H3 & H4 & H5); [vm_compute; reflexivity|].
  apply andb_prop in H5. destruct H5 as [A B].
  destruct (make_tree 100 o') as [t| |] eqn:E1; try discriminate B. destruct (draw _ o' t) as [p| |] eqn:E2; try discriminate B.
  destruct (picture_dec p error_picture) as [->|]; [|discriminate B].
  destruct rs as [|[[|b|e| |] z] [|]]; try discriminate A. exists o, P, q, o', [(RError e, z)], e, t. csplit; auto.
Qed.

(** --- pages --- *)
Definition finals_in (o : org) : list (list (string * string)) := match make_tree 100 o with Val t => map snd (q_finals t) | _ => [] end.
Definition look (i : nat) (p : out page) : option (list string * bool * option (nat * list (list (string * string)))) :=
  match p with
  | Val p => match nth_error (pg_boxes p) i with
             | Some (b, d) => Some (b_shown b, can_open b, match pg_window p with Some (j, o) => Some (j, finals_in o) | None => None end)
             | None => None
             end
  | _ => None
  end.
Lemma look_inv i p r : look i p = Some r -> exists p' b d, p = Val p' /\ nth_error (pg_boxes p') i = Some (b, d) /\
  (b_shown b, can_open b, match pg_window p' with Some (j, o) => Some (j, finals_in o) | None => None end) = r.
Proof.
  unfold look. destruct p as [p'| |]; try discriminate. destruct (nth_error (pg_boxes p') i) as [[b d]|] eqn:E; [|discriminate].
  intros H. injection H as H. exists p', b, d. auto.
Qed.
Definition stale_events : list pevent := [PRun v_good letters "p(X)"; PNext 0 v_slow; PTree 0; PTimer 0 0 v_good].
Lemma stale_look : look 0 (psteps cfg0 (stale_events ++ [PTree 0]) first_page) = Some (["[X / a]"; "[X / b]"], true, Some (0, [[("X", "a")]])).
Proof. vm_compute. reflexivity. Qed.
Lemma stale_window : exists es p b d o, psteps cfg0 (es ++ [PTree 0]) first_page = Val p /\ nth_error (pg_boxes p) 0 = Some (b, d) /\ can_open b = true /\
  b_shown b = ["[X / a]"; "[X / b]"] /\ pg_window p = Some (0, o) /\ finals_in o = [[("X", "a")]].
Proof.
  destruct (look_inv _ _ _ stale_look) as (p & b & d & E & N & K). injection K as K1 K2 K3.
  destruct (pg_window p) as [[j o]|] eqn:W; [|discriminate K3]. injection K3 as -> K3. exists stale_events, p, b, d, o. csplit; auto.
Qed.
(** the same, with the tree of another box opened in between *)
Lemma fresh_look : look 0 (psteps cfg0 (([PRun v_good letters "p(X)"; PRun v_good letters "p(b)"; PNext 0 v_slow; PTree 0; PTimer 0 0 v_good] ++ PTree 1 :: [PKill 1]) ++ [PTree 0]) first_page)
  = Some (["[X / a]"; "[X / b]"], true, Some (0, [[("X", "a")]; [("X", "b")]])).
Proof. vm_compute. reflexivity. Qed.
Lemma fresh_since : exists es p p1 p2 b d, psteps cfg0 es first_page = Val p /\ existsb (is_timer 0) es = true /\ pstep cfg0 (PTree 1) p = Val p1 /\ pg_newest p < pg_newest p1 /\
  psteps cfg0 [PKill 1] p1 = Val p2 /\ nth_error (pg_boxes p2) 0 = Some (b, d) /\ can_open b = true /\ b_shown b = ["[X / a]"; "[X / b]"] /\ finals_in (b_org b) = [[("X", "a")]; [("X", "b")]].
Proof.
  set (es := [PRun v_good letters "p(X)"; PRun v_good letters "p(b)"; PNext 0 v_slow; PTree 0; PTimer 0 0 v_good]).
  assert (K : match psteps cfg0 es first_page with
    | Val p => match pstep cfg0 (PTree 1) p with
               | Val p1 => Nat.ltb (pg_newest p) (pg_newest p1) &&
                   match psteps cfg0 [PKill 1] p1 with
                   | Val p2 => match nth_error (pg_boxes p2) 0 with
                               | Some (b, _) => can_open b && (if list_eq_dec string_dec (b_shown b) ["[X / a]"; "[X / b]"] then true else false) &&
                                   (if list_eq_dec (list_eq_dec pair_dec) (finals_in (b_org b)) [[("X", "a")]; [("X", "b")]] then true else false)
                               | None => false
                               end
                   | _ => false
                   end
               | _ => false
               end
    | _ => false
    end = true) by (vm_compute; reflexivity).
  destruct (psteps cfg0 es first_page) as [p| |] eqn:E1; try discriminate K. destruct (pstep cfg0 (PTree 1) p) as [p1| |] eqn:E2; try discriminate K.
  apply andb_prop in K. destruct K as [K1 K]. destruct (psteps cfg0 [PKill 1] p1) as [p2| |] eqn:E3; try discriminate K.
  destruct (nth_error (pg_boxes p2) 0) as [[b d]|] eqn:E4; [|discriminate K]. apply andb_prop in K. destruct K as [K K3]. apply andb_prop in K. destruct K as [K0 K2].
  destruct (list_eq_dec string_dec _ _) as [E5|]; [|discriminate K2]. destruct (list_eq_dec (list_eq_dec pair_dec) _ _) as [E6|]; [|discriminate K3].
  exists es, p, p1, p2, b, d. csplit; auto. now apply Nat.ltb_lt.
Qed.
