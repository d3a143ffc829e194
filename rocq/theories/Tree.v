(** The unification tree (get_unification_tree). *)
From Verif Require Import Base Machine Heap Compiler Parser Print Organizer.
Open Scope string_scope.
Open Scope list_scope.

(** node.h 32-46 for nodes made from the heap: a variable carries its heap index (node.h 138-143). *)
Inductive rnode :=
| RVar (s : string) (a : nat)
| RCon (s : string)
| RInt (s : string)
| RFun (s : string) (l : list rnode)
| REv (s : string) (l : list rnode).

(** node.cpp 13-78. [tail]: the loop 29-47 over the rest of a list. *)
Fixpoint rstr (tail : bool) (n : rnode) {struct n} : out string :=
  let args := (fix args (l : list rnode) : out string :=
    match l with
    | [] => Ub UAssert
    | [x] => rstr false x
    | x :: l' => a <- rstr false x ;; r <- args l' ;; Val (a ++ ", " ++ r)
    end%string) in
  let whole (s : out string) := r <- s ;; Val (if tail then ", " ++ r ++ "]" else r)%string in
  match n with
  | RVar s _ | RCon s | RInt s => if tail && (s =? "[") then Ub UAssert else whole (Val s)
  | RFun s l =>
      if s =? "[" then
        match l with
        | [] => Val (if tail then "]" else "[]")
        | [h; t] => a <- rstr false h ;; r <- rstr true t ;; Val ((if tail then ", " else "[") ++ a ++ r)%string
        | _ => Ub UAssert
        end
      else whole (a <- args l ;; Val (s ++ "(" ++ a ++ ")")%string)
  | REv s l =>
      match l with
      | [x; y] => whole (a <- rstr false x ;; b <- rstr false y ;; Val ("(" ++ a ++ " " ++ s ++ " " ++ b ++ ")")%string)
      | _ => Ub UAssert
      end
  end.
Definition node_str : rnode -> out string := rstr false.

(** query_node.h 15-33, var_binding_node.h 22-46. The executor is given by its index in the arena; [name] is
    query_name and resolved_query_name (None until resolved), [binds] are var_bindings with first_fact_binding. *)
Inductive qnode := QNode (ex id : nat) (name : option (rnode * string)) (kids : list bnode)
with bnode := BNode (ex id : nat) (binds : option (list (string * string) * nat)) (below : bchild)
with bchild :=
| BNone
| BFinal (b : list (string * string))
| BQuery (q : qnode).

Section Tree.
Variable fuel : nat.

(** executor.h 209-212 *)
Definition last_child (e : exec) : out nat := of_opt UAssert (nth_error (x_kids e) (List.length (x_kids e) - 1)).

(** unification_tree.cpp 22-50. std::transform visits the children in order; the counter is an int, here
    unbounded. The first fuel bounds the depth (children are younger than their parents). *)
Fixpoint make_q (n : nat) (o : org) (id cnt : nat) {struct n} : out (qnode * nat) :=
  match n with
  | 0 => Fuel
  | S n' =>
      e <- get_exec o id ;;
      '(ks, cnt1) <-
        (fix go (l : list nat) (c : nat) : out (list bnode * nat) :=
           match l with
           | [] => Val ([], c)
           | k :: l' =>
               ke <- get_exec o k ;;
               '(b, c1) <- (match x_state ke with
                            | SSuccess => b <- find_subs fuel o k ;; Val (BFinal b, S c)
                            | SArchived => j <- last_child ke ;; '(q, c1) <- make_q n' o j (S c) ;; Val (BQuery q, c1)
                            | _ => Val (BNone, S c)
                            end) ;;
               '(r, c2) <- go l' c1 ;;
               Val (BNode k c None b :: r, c2)
           end) (x_kids e) (S cnt) ;;
      Val (QNode id cnt None ks, cnt1)
  end.

(** substitution_util.cpp 21-66 *)
Fixpoint node_args (p : nat -> out rnode) (n k : nat) : out (list rnode) :=
  match n with
  | 0 => Val []
  | S n' => x <- p k ;; r <- node_args p n' (S k) ;; Val (x :: r)
  end.
Fixpoint node_rep {H} (ops : hops H) (sto : storage) (n : nat) (h : H) (index : nat) : out rnode :=
  match n with
  | 0 => Fuel
  | S n' =>
      d <- deref H ops h index ;;
      c <- at_ H ops h d ;;
      match c with
      | CRef _ v => nm <- of_opt UStorage (nthZ (s_vars sto) v) ;; Val (RVar nm d)
      | CInt z => Val (RInt (string_of_Z z))
      | CCons i => fv <- of_opt UStorage (nthZ (s_functors sto) i) ;; Val (RCon (fv_name fv))
      | CFun i _ =>
          fv <- of_opt UStorage (nthZ (s_functors sto) i) ;;
          l <- node_args (node_rep ops sto n' h) (fv_arity fv) (d + 1) ;; Val (RFun (fv_name fv) l)
      | CEval i _ =>
          nm <- of_opt UStorage (op_name i) ;;
          l <- node_args (node_rep ops sto n' h) 2 (d + 1) ;; Val (REv nm l)
      | CStr _ => Ub UAssert
      end
  end.
(** the same for the heap of an executor *)
Definition exec_rep (o : org) (e : exec) (a : nat) : out rnode :=
  node_rep (lops (heap_at (o_arena o) (x_parent e))) (o_sto o) fuel (m_heap (x_m e)) a.

Fixpoint replace_vars (l : list (string * rnode)) (n : node) : out rnode :=
  match n with
  | NVar s => of_opt UAssert (assoc s l)
  | NCon s => Val (RCon s)
  | NInt s => Val (RInt s)
  | NFun s ks => r <- (fix go (l' : list node) := match l' with [] => Val [] | x :: l'' => y <- replace_vars l x ;; r <- go l'' ;; Val (y :: r) end) ks ;; Val (RFun s r)
  | NEv s ks => r <- (fix go (l' : list node) := match l' with [] => Val [] | x :: l'' => y <- replace_vars l x ;; r <- go l'' ;; Val (y :: r) end) ks ;; Val (REv s r)
  end.
Fixpoint reps (o : org) (e : exec) (l : list (string * nat)) : out (list (string * rnode)) :=
  match l with
  | [] => Val []
  | (s, a) :: l' => n <- exec_rep o e a ;; r <- reps o e l' ;; Val ((s, n) :: r)
  end.

(** executor.h 248-251, query_node.h 118-120 *)
Definition solved (o : org) (e : exec) : out catom :=
  match x_codes e with [] => Ub UCode | p :: _ => follow o p end.
Definition is_running (e : exec) : bool := match x_state e with SRunning => true | _ => false end.
Definition has_failed (e : exec) : bool := match x_state e with SFail | SError _ => true | _ => false end.

(** unification_tree.cpp 55-72. The registers of the variables of the parsed atom are those in [ca_subs]
    (node_util.cpp 13-37); each variable is treated by itself, so the order of the unordered_map does not matter. *)
Definition query_name (o : org) (e : exec) : out rnode :=
  if is_running e then Val (RCon "cant determine name yet")
  else
    a <- solved o e ;;
    l <- sub_addrs (x_m e) (ca_subs a) ;;
    r <- reps o e l ;;
    replace_vars r (ca_node a).

(** node_util.h 30-56: the variables of a resolved name in breadth-first order, without repetition (same name and
    same heap index) *)
Definition rkids (n : rnode) : list rnode := match n with RFun _ l | REv _ l => l | _ => [] end.
Fixpoint rsize (n : rnode) : nat :=
  match n with RFun _ l | REv _ l => S (fold_right (fun m acc => rsize m + acc) 0 l) | _ => 1 end.
Fixpoint rbfs (f : nat) (q : list rnode) : list rnode :=
  match f with 0 => [] | S f' => match q with [] => [] | n :: q' => n :: rbfs f' (q' ++ rkids n) end end.
Definition same_var (x y : string * nat) : bool := (fst x =? fst y) && Nat.eqb (snd x) (snd y).
Fixpoint unique_vars (l : list rnode) (done : list (string * nat)) : list (string * nat) :=
  match l with
  | [] => done
  | RVar s a :: l' => unique_vars l' (if existsb (same_var (s, a)) done then done else done ++ [(s, a)])
  | _ :: l' => unique_vars l' done
  end.
Definition name_vars (n : rnode) : list (string * nat) := unique_vars (rbfs (rsize n) (rkids n)) [].

(** unification_tree.cpp 175-200, node_var_util.h 19-27: variables that are still themselves are left out *)
Definition itself (b : (string * nat) * rnode) : bool :=
  match snd b with RVar s a => same_var (fst b) (s, a) | _ => false end.
Fixpoint bindings (o : org) (e : exec) (l : list (string * nat)) : out (list ((string * nat) * rnode)) :=
  match l with
  | [] => Val []
  | v :: l' => n <- exec_rep o e (snd v) ;; r <- bindings o e l' ;; Val ((v, n) :: r)
  end.
Fixpoint strs (l : list ((string * nat) * rnode)) : out (list (string * string)) :=
  match l with
  | [] => Val []
  | (v, n) :: l' => s <- node_str n ;; r <- strs l' ;; Val ((fst v, s) :: r)
  end.
(** unification_tree.cpp 93-135 *)
Definition bind_node (o : org) (name : rnode) (e : exec) : out (list (string * string) * nat) :=
  a <- solved o e ;;
  fv <- sub_addrs (x_m e) (ca_subs a) ;;
  q <- bindings o e (name_vars name) ;;
  f <- bindings o e fv ;;
  let q' := filter (fun b => negb (itself b)) q in
  let f' := filter (fun b => negb (itself b)) f in
  l <- strs (q' ++ f') ;; Val (l, List.length q').

(** unification_tree.cpp 74-91, 137-158 *)
Fixpoint resolve_q (o : org) (t : qnode) {struct t} : out qnode :=
  match t with
  | QNode ex id _ ks =>
      e <- get_exec o ex ;;
      nm <- query_name o e ;;
      str <- node_str nm ;;
      if has_failed e || is_running e then Val (QNode ex id (Some (nm, str)) ks)
      else
        ks' <- (fix go (l : list bnode) : out (list bnode) :=
                  match l with
                  | [] => Val []
                  | b :: l' => b' <- resolve_b o nm b ;; r <- go l' ;; Val (b' :: r)
                  end) ks ;;
        Val (QNode ex id (Some (nm, str)) ks')
  end
with resolve_b (o : org) (name : rnode) (b : bnode) {struct b} : out bnode :=
  match b with
  | BNode ex id bs c =>
      e <- get_exec o ex ;;
      if has_failed e || is_running e then Val b
      else
        l <- bind_node o name e ;;
        match c with
        | BQuery q => q' <- resolve_q o q ;; Val (BNode ex id (Some l) (BQuery q'))
        | BFinal _ => Val (BNode ex id (Some l) c)
        | BNone => Ub UAssert
        end
  end.

(** unification_tree.cpp 15-20, bfs_organizer.cpp 176-184 (without the message that replaces the tree when memory
    is exhausted) *)
Definition make_tree (o : org) : out qnode :=
  '(t, _) <- make_q (S (List.length (o_arena o))) o 0 0 ;; resolve_q o t.
End Tree.
