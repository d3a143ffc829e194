(** The picture of the unification tree in the web page. *)
From Verif Require Import Base Machine Heap Compiler Parser Print Organizer Tree.
Open Scope string_scope.
Open Scope list_scope.

(** What is handed to vis.js (TreeView.js 124-314): nodes with number, label and, through colour and place in the code, kind;
    edges; the numbers of the nodes that react to a click. Titles (tool tips) are left out. *)
Inductive vkind := VQuery | VContinue | VNoRule | VNotUnifiable | VAnswer.
Record vnode := { v_id : Z; v_kind : vkind; v_label : string }.
Record picture := { p_nodes : list vnode; p_edges : list (Z * Z); p_continue : list Z }.

(** var_binding_node.h 124-135: every binding is followed by a blank *)
Definition final_str (b : list (string * string)) : string :=
  match b with [] => "true" | _ => fold_right (fun x s => (binding_str x ++ " " ++ s)%string) "" b end.

(** what hangs below a query node: another query node, or an additional node *)
Inductive vchild := VDown (q : qnode) | VExtra (k : vkind) (label : string).
Definition continue_child : vchild := VExtra VContinue "*continue search*".
Definition q_id (t : qnode) : nat := match t with QNode _ id _ _ => id end.
(** TreeView.js 215-304; var_binding_node.h 75-85, 102-104, 119-122 *)
Definition bind_child (o : org) (b : bnode) : out vchild :=
  match b with
  | BNode ex _ _ (BQuery q) => Val (VDown q)
  | BNode ex _ _ c =>
      e <- get_exec o ex ;;
      if has_failed e then Val (VExtra VNotUnifiable "not unifiable")
      else match x_state e with
           | SSuccess => match c with BFinal b => Val (VExtra VAnswer (final_str b)) | _ => Ub UAssert end
           | _ => Val continue_child
           end
  end.
Fixpoint bind_children (o : org) (l : list bnode) : out (list vchild) :=
  match l with
  | [] => Val []
  | b :: l' => c <- bind_child o b ;; r <- bind_children o l' ;; Val (c :: r)
  end.
(** 181-211, 306; query_node.h 66-72 *)
Definition q_children (o : org) (t : qnode) : out (list vchild) :=
  match t with
  | QNode ex _ _ ks =>
      e <- get_exec o ex ;;
      if is_running e then Val [continue_child]
      else if has_failed e then Val [VExtra VNoRule "no such rule"]
      else bind_children o ks
  end.
(** the children in order; [cnt]: additional_node_counter. Gives the new nodes, the edges, what is enqueued and the counter. *)
Fixpoint put_children (from : Z) (l : list vchild) (cnt : Z) : list vnode * list (Z * Z) * list qnode * Z :=
  match l with
  | [] => ([], [], [], cnt)
  | VDown q :: l' =>
      let '(ns, es, qs, c) := put_children from l' cnt in (ns, (from, Z.of_nat (q_id q)) :: es, q :: qs, c)
  | VExtra k s :: l' =>
      let '(ns, es, qs, c) := put_children from l' (cnt - 1) in
      ({| v_id := cnt; v_kind := k; v_label := s |} :: ns, (from, cnt) :: es, qs, c)
  end.
(** resolved_query_name, query_node.h 102-104 *)
Definition label_of (t : qnode) : string := match t with QNode _ _ (Some (_, s)) _ => s | _ => "" end.
Definition is_continue (v : vnode) : bool := match v_kind v with VContinue => true | _ => false end.
(** the loop over the queue, 160-307; Queue.js is first in, first out *)
Fixpoint draw_loop (n : nat) (o : org) (queue : list qnode) (cnt : Z) : out (list vnode * list (Z * Z)) :=
  match queue with
  | [] => Val ([], [])
  | t :: rest =>
      match n with
      | 0 => Fuel
      | S n' =>
          l <- q_children o t ;;
          let '(ns, es, qs, c) := put_children (Z.of_nat (q_id t)) l cnt in
          '(ns', es') <- draw_loop n' o (rest ++ qs) c ;;
          Val ({| v_id := Z.of_nat (q_id t); v_kind := VQuery; v_label := label_of t |} :: ns ++ ns', es ++ es')
      end
  end.
(** 124-314 for a tree (not the node that reports exhausted memory); [n] bounds the number of query nodes *)
Definition draw (n : nat) (o : org) (t : qnode) : out picture :=
  '(ns, es) <- draw_loop n o [t] (-1) ;;
  Val {| p_nodes := ns; p_edges := es; p_continue := map v_id (filter is_continue ns) |}.
