(** Test cases of the repository, run on the model from source text. *)
From Verif Require Import Base Machine Heap Compiler Parser Print Organizer.
Open Scope string_scope.
Open Scope list_scope.

Definition cfg0 : cfg := {| c_ord := fun l => l; c_powf := fun a b => FFin (a ^ b) 0 |}.
Definition w0 : world := {| w_time := fun _ => 0%Z; w_oom := fun _ => false |}.

Fixpoint answers (k : nat) (o : org) : list (out res) :=
  match k with
  | 0 => []
  | S k' => match get_answer cfg0 1000 1000 w0 o with
            | Val (r, o') => Val r :: match r with RFalse => [] | _ => answers k' o' end
            | Ub u => [Ub u]
            | Fuel => [Fuel]
            end
  end.
(** load a program and a query, ask for at most k answers *)
Definition ask (k : nat) (program query : string) : option (load_res * load_res * list (out res)) :=
  match new_org cfg0 with
  | Val o => match load_program cfg0 program o with
             | Some (l1, o1) => match load_query cfg0 query o1 with
                                | Some (l2, o2) => Some (l1, l2, answers k o2)
                                | None => None
                                end
             | None => None
             end
  | _ => None
  end.

Ltac check := vm_compute; reflexivity.

Example ex1 : ask 3 "p(f(X),h(Y,f(a)),Y)." "p(Z,h(Z,W),f(W))"
  = Some (LOk, LOk, [Val (RAnswer [("Z", "f(f(a))"); ("W", "f(a)")]); Val RFalse]).
Proof. check. Qed.
Example ex3 : ask 3 "g([[a,Y]])." "g(Z)."
  = Some (LOk, LOk, [Val (RAnswer [("Z", "[[a,Y9]]")]); Val RFalse]).
Proof. check. Qed.
Example ex4 : ask 3 "g(X,X)." "g(Z1,Z2)."
  = Some (LOk, LOk, [Val (RAnswer [("Z1", "Z2"); ("Z2", "Z2")]); Val RFalse]).
Proof. check. Qed.
Example ex5 : ask 3 "" "append([a,[X],c],[1],Z)."
  = Some (LOk, LOk, [Val (RAnswer [("Z", "[a,[X],c,1]"); ("X", "X")]); Val RFalse]).
Proof. check. Qed.
Example ex6 : ask 3 "alt([]). alt([1,0|R]) :- alt(R)." "alt(X)."
  = Some (LOk, LOk, [Val (RAnswer [("X", "[]")]); Val (RAnswer [("X", "[1,0]")]);
                     Val (RAnswer [("X", "[1,0,1,0]")])]).
Proof. check. Qed.
Example ex7 : ask 3 "e(1 + 1)." "e(Y), X is Y"
  = Some (LOk, LOk, [Val (RAnswer [("X", "2"); ("Y", "(1 + 1)")]); Val RFalse]).
Proof. check. Qed.
Example ex8 : ask 3 "" "X is (4 + 4) * 4 - ((2 + 3)*2)."
  = Some (LOk, LOk, [Val (RAnswer [("X", "22")]); Val RFalse]).
Proof. check. Qed.
Example ex9 : ask 1 "z(X):-z(X). z(a)." "z(A)." = Some (LOk, LOk, [Val (RAnswer [("A", "a")])]).
Proof. check. Qed.
Example ex10 : ask 2 "" "a is 3" = Some (LOk, LOk, [Val RFalse]).
Proof. check. Qed.
Example ex11 : ask 2 "" "X is 1 // 0" = Some (LOk, LOk, [Val (RError EDivBy0); Val RFalse]).
Proof. check. Qed.
Example ex12 : ask 2 "" "X is 1 + Y" = Some (LOk, LErr CNotInst, [Val RFalse]).
Proof. check. Qed.
Example ex13 : ask 2 "append(X,Y,Z) :- f(X)." "f(a)" = Some (LErr CRedef, LOk, [Val RFalse]).
Proof. check. Qed.
Example ex14 : ask 2 "len([X|R],Y) :- len(R,LR), Y is 1 + LR. len([],0)." "len([a,b,c],N)."
  = Some (LOk, LOk, [Val (RAnswer [("N", "3")]); Val RFalse]).
Proof. check. Qed.
Example ex15 : ask 2 "" "[] is 3" = Some (LOk, LOk, [Val RFalse]).
Proof. check. Qed.
Example ex16 : ask 3 "p(a). % hello
 p(b)." "p(X), p(Y), X == Y"
  = Some (LOk, LOk, [Val (RAnswer [("X", "a"); ("Y", "a")]); Val (RAnswer [("X", "b"); ("Y", "b")]);
                     Val RFalse]).
Proof. check. Qed.

(** the object after loading a program and a query successfully *)
Definition loaded (program query : string) : option org :=
  match new_org cfg0 with
  | Val o => match load_program cfg0 program o with
             | Some (LOk, o1) => match load_query cfg0 query o1 with
                                 | Some (LOk, o2) => Some o2
                                 | _ => None
                                 end
             | _ => None
             end
  | _ => None
  end.
(** the same answers with any meaning of powf *)
Definition ask_pow (pw : Z -> Z -> fval) (query : string) : option (out res) :=
  let cf := {| c_ord := fun l => l; c_powf := pw |} in
  match new_org cf with
  | Val o => match load_query cf query o with
             | Some (LOk, o1) => Some (r <- get_answer cf 1000 1000 w0 o1 ;; Val (fst r))
             | _ => None
             end
  | _ => None
  end.
