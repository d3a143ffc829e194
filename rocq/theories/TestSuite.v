(** The tests of the repository (/repo/test), run on the model from source text: the model replies what the authors of
    the program expect, down to the addresses in the names of variables and the columns of syntax errors. The tests are
    evaluated while this file is compiled, and one that fails stops the build; they are no part of any proof. Left out
    are tests that only compile or print something, sizeof (various/heap_reg_size_test.cpp), and of three long series of
    answers the last ones. *)
From Verif Require Import Base Machine Heap Compiler Parser Print Organizer Examples Tree Positions ErrPos.
Open Scope string_scope.
Open Scope list_scope.

Fixpoint asks (k : nat) (o : org) : list (out res) :=
  match k with
  | 0 => []
  | S k' => match get_answer cfg0 5000 5000 w0 o with
            | Val (r, o') => Val r :: asks k' o'
            | Ub u => [Ub u]
            | Fuel => [Fuel]
            end
  end.
Definition opened (program query : string) : option org :=
  match new_org cfg0 with
  | Val o => match load_program cfg0 program o with
             | Some (_, o1) => match load_query cfg0 query o1 with Some (_, o2) => Some o2 | None => None end
             | None => None
             end
  | _ => None
  end.
Definition replies (k : nat) (program query : string) : list (out res) := match opened program query with Some o => asks k o | None => [] end.
Definition has_answer (p q : string) : bool := match replies 1 p q with [Val (RAnswer _)] => true | _ => false end.
Definition no_answer (p q : string) : bool := match replies 1 p q with [Val RFalse] => true | _ => false end.
Definition pair_eqb (x y : string * string) : bool := (fst x =? fst y) && (snd x =? snd y).
Fixpoint take {A} (eqb : A -> A -> bool) (x : A) (l : list A) : option (list A) :=
  match l with [] => None | y :: l' => if eqb x y then Some l' else match take eqb x l' with Some r => Some (y :: r) | None => None end end.
(** what remains of [m] after removing the elements of [l], if all are there *)
Fixpoint taken {A} (eqb : A -> A -> bool) (l m : list A) : option (list A) :=
  match l with [] => Some m | x :: l' => match take eqb x m with Some m' => taken eqb l' m' | None => None end end.
Definition same {A} (eqb : A -> A -> bool) (l m : list A) : bool := match taken eqb l m with Some [] => true | _ => false end.
(** test_util.cpp 17-35 *)
Definition binds (p q : string) (d : list (string * string)) : bool := match replies 1 p q with [Val (RAnswer l)] => same pair_eqb l d | _ => false end.
Definition first_binding (p q b : string) : bool := match replies 1 p q with [Val (RAnswer ((_, x) :: _))] => x =? b | _ => false end.
Definition answers_are (p q : string) (ds : list (list (string * string))) : bool :=
  let fix go rs ds := match rs, ds with [], [] => true | Val (RAnswer l) :: rs', d :: ds' => same pair_eqb l d && go rs' ds' | _, _ => false end in
  go (replies (List.length ds) p q) ds.
(** all values shown in the answers *)
Fixpoint values (rs : list (out res)) : option (list string) :=
  match rs with
  | [] => Some []
  | Val (RAnswer l) :: rs' => match values rs' with Some v => Some (map snd l ++ v) | None => None end
  | _ => None
  end.
Fixpoint until_false (rs : list (out res)) : option (list (out res)) :=
  match rs with [] => None | Val RFalse :: _ => Some [] | r :: rs' => match until_false rs' with Some l => Some (r :: l) | None => None end end.
Definition all_answers (k : nat) (p q : string) (vs : list string) : bool :=
  match until_false (replies k p q) with Some rs => match values rs with Some v => same String.eqb v vs | None => false end | None => false end.
Definition gives (k : nat) (p q : string) : bool := match values (replies k p q) with Some _ => Nat.eqb (List.length (replies k p q)) k | None => false end.
Definition count (s : string) (v : list string) : nat := List.length (filter (String.eqb s) v).
Definition each_twice (k : nat) (p q : string) (vs : list string) : bool :=
  match values (replies k p q) with
  | Some v => forallb (fun s => existsb (String.eqb s) vs) v && forallb (fun s => Nat.leb 2 (count s v)) vs
  | None => false
  end.
Definition answers_among (k : nat) (p q : string) (vs : list string) (left : nat) : bool :=
  match values (replies k p q) with Some v => match taken String.eqb v vs with Some l => Nat.eqb (List.length l) left | None => false end | None => false end.
Definition answers_after_first (k : nat) (p q : string) (vs : list string) : bool :=
  match replies (S k) p q with
  | Val (RAnswer _) :: rs => match values rs with Some v => match taken String.eqb v vs with Some _ => true | None => false end | None => false end
  | _ => false
  end.
Definition first_error (p q : string) (f : rterr -> bool) : bool := match replies 1 p q with [Val (RError e)] => f e | _ => false end.
Definition load_eqb (a b : load_res) : bool :=
  match a, b with LErr CRedef, LErr CRedef | LErr CNotInst, LErr CNotInst | LOk, LOk => true | _, _ => false end.
Definition loads_with (p : string) (r : load_res) : bool :=
  match new_org cfg0 with Val o => match load_program cfg0 p o with Some (l, _) => load_eqb l r | None => false end | _ => false end.
Definition query_loads_with (q : string) (r : load_res) : bool :=
  match new_org cfg0 with Val o => match load_query cfg0 q o with Some (l, _) => load_eqb l r | None => false end | _ => false end.
Definition valid (p : string) : bool := match validate_program p with Some r => negb (reports_error r) | None => false end.
Definition valid_query (q : string) : bool := match validate_query q with Some r => negb (reports_error r) | None => false end.
(** lines and columns counted from 1; these texts have their mistake in the first line *)
Definition stopped_at {A} (s : string) (r : option (parsed A)) (line col : nat) : bool :=
  match r with
  | Some (Stopped t) => N.eqb (error_line s t) (N.of_nat line) && Nat.eqb (String.length s - String.length t + 1) col
  | _ => false
  end.
Definition wrong_program_at (p : string) (line col : nat) : bool := stopped_at p (parse_program_x p) line col.
Definition wrong_query_at (q : string) (line col : nat) : bool := let s := append_dot q in stopped_at s (parse_query_x s) line col.
Fixpoint after (k : nat) (o : org) : option org :=
  match k with 0 => Some o | S k' => match get_answer cfg0 5000 5000 w0 o with Val (_, o') => after k' o' | _ => None end end.
Definition tree_of (k : nat) (p q : string) : out qnode :=
  match opened p q with Some o => match after k o with Some o' => make_tree 5000 o' | None => Fuel end | None => Fuel end.
Definition tree_made (k : nat) (p q : string) : bool := match tree_of k p q with Val _ => true | _ => false end.
(** the node reached by taking the given children *)
Fixpoint below (t : qnode) (path : list nat) : option qnode :=
  match path with
  | [] => Some t
  | i :: r => let '(QNode _ _ _ l) := t in match nth_error l i with Some (BNode _ _ _ (BQuery t')) => below t' r | _ => None end
  end.
Definition label_at (p q : string) (path : list nat) (s : string) : bool :=
  match tree_of 1 p q with
  | Val t => match below t path with Some (QNode _ _ (Some (_, l)) _) => l =? s | _ => false end
  | _ => false
  end.

Definition branch (k : nat) (p q : string) (path : list nat) (i : nat) : option (org * bnode) :=
  match opened p q with
  | Some o => match after k o with
              | Some o' => match make_tree 5000 o' with
                           | Val t => match below t path with Some (QNode _ _ _ l) => match nth_error l i with Some b => Some (o', b) | None => None end | None => None end
                           | _ => None
                           end
              | None => None
              end
  | None => None
  end.
Definition ends (x : xstate) : nat := match x with SRunning => 0 | SFail | SError _ => 1 | SSuccess => 2 | SArchived => 3 end.
Definition ToBeContinued := 0. Definition Failed := 1. Definition Succeeded := 2. Definition Continues := 3.
(** var_binding_node.h 100-130 *)
Definition branch_is (p q : string) (path : list nat) (i kind : nat) : bool :=
  match branch 1 p q path i with
  | Some (o, BNode ex _ _ _) => match nth_error (o_arena o) ex with Some e => Nat.eqb (ends (x_state e)) kind | None => false end
  | None => false
  end.
Definition binds_at (p q : string) (path : list nat) (i : nat) (d : list (string * string)) : bool :=
  match branch 1 p q path i with Some (_, BNode _ _ (Some (l, _)) _) => same pair_eqb l d | _ => false end.
Definition first_at (p q : string) (path : list nat) (i : nat) (d : list (string * string)) : bool :=
  match branch 1 p q path i, d with Some (_, BNode _ _ (Some (x :: _, _)) _), [y] => pair_eqb x y | _, _ => false end.
Definition final_at (p q : string) (path : list nat) (i : nat) (d : list (string * string)) : bool :=
  match branch 1 p q path i with Some (_, BNode _ _ _ (BFinal l)) => same pair_eqb l d | _ => false end.
Definition waits_at (p q : string) (path : list nat) : bool :=
  match opened p q with
  | Some o => match after 1 o with
              | Some o' => match make_tree 5000 o' with
                           | Val t => match below t path with Some (QNode ex _ _ _) => match nth_error (o_arena o') ex with Some e => is_running e | None => false end | None => false end
                           | _ => false
                           end
              | None => false
              end
  | None => false
  end.
(** a clock that has moved on whenever it is read *)
Definition out_of_time (p q : string) : bool :=
  match opened p q with
  | Some o => match get_answer cfg0 5000 5000 {| w_time := fun k => Z.of_nat k; w_oom := fun _ => false |} (set_time_limit 0 o) with
              | Val (ROutOfTime, _) => true
              | _ => false
              end
  | None => false
  end.

Ltac expect t := let v := eval vm_compute in t in first [constr_eq v true | fail 1 "this test fails:" t].

Definition program_1 := "p(X,Y) :- q(X,Z), r(Z,Y).q(x,z).r(z,y).a(A,B) :- b(B,C), c(C,D), d(D,E), e(E,F), f(F,A).b(b,c).c(c,d).d(d,e).e(e,f).f(f,a).h(g(f(A),X),f(b),f(g(h(X,Y,B),c))) :- c(c,d), a(A,B), p(X,Y),e(E,F).a.b.c.d.".
Definition program_2 := "h(a).o(X) :- h(X).nat(b).nat(a).one(X) :- nat(X), o(X).two(b).l([a, b, [Y, [X]]], f(b([a, [a] | [Z]]))) :- one(Y), one(X), two(Z).".
Definition program_3 := "p(X,Y) :- q(X,Z), r(Z,Y).q(x,z).r(z,y).a(A,B) :- b(B,C), c(C,D), d(D,E), e(E,F), f(F,A).b(b,c).c(c,d).d(d,e).e(e,f).f(f,a).h(g(f(A),X),f(b),f(g(h(X,Y,B),c))) :- c(c,d), a(A,B), p(X,Y),e(E,F).g(a,f(h(f(d),a,b))) :- c(c,d), a(A,B), p(X,Y),e(E,F).g(a,f(b)).z(X) :- z(X).z(a).".
Definition program_4 := "p(X,Y) :- q(X,Z), r(Z,Y).q(x,z).r(z,y).a(A,B) :- b(B,C), c(C,D), d(D,E), e(E,F), f(F,A).b(b,c).c(c,d).d(d,e).e(e,f).f(f,a).h(g(f(A),X),f(b),f(g(h(X,Y,B),c))) :- c(c,d), a(A,B), p(X,Y),e(E,F).g(a,f(h(f(d),a,b))) :- c(c,d), a(A,B), p(X,Y),e(E,F).g(a,f(b)).x(A) :- a(A,B).x(A) :- a(a,A).".
Definition program_5 := "p(X,Y) :- q(X,Z), r(Z,Y).q(x,z).r(z,y).a(A,B) :- b(B,C), c(C,D), d(D,E), e(E,F), f(F,A).b(b,c).c(c,d).d(d,e).e(e,f).f(f,a).h(g(f(A),X),f(b),f(g(h(X,Y,B),c))) :- c(c,d), a(A,B), p(X,Y),e(E,F).g(a,f(h(f(d),a,b))) :- c(c,d), a(A,B), p(X,Y),e(E,F).g(a,f(b)).x(A) :- p(x,Y),a(A,B),c(C,d).x(A) :- h(X,Y,Z), p(D,J), a(a,A).".
Definition program_6 := "p(X,Y) :- q(X,Z), r(Z,Y).q(x,z).r(z,y).a(A,B) :- b(B,C), c(C,D), d(D,E), e(E,F), f(F,A).b(b,c).c(c,d).d(d,e).e(e,f).f(f,a).h(g(f(A),X),f(b),f(g(h(X,Y,B),c))) :- c(c,d), a(A,B), p(X,Y),e(E,F).g(a,f(h(f(d),a,b))) :- c(c,d), a(A,B), p(X,Y),e(E,F).g(a,f(b)).z(X) :- z(X).z(a).x(A) :- a(A,B).x(B) :- a(a,B).".
Definition program_7 := "len([X | R], Y) :- len(R, LR), Y is 1 + LR.len([], 0).l([1]).".
Definition program_8 := "len([X | R], Y) :- len(R, LR), Y is 1 + LR.len([], 0).alt([1,0 | R]) :- alt(R).alt([]).".
Definition program_9 := "zustand(readSigma).zustand(dele).sigma(a).sigma(b).kellerSym(raute).kellerSym(a).delta(readSigma, nix, raute, readSigma,nil).delta(readSigma, a, raute, readSigma ,list(a,list(raute,nil))).delta(readSigma, a, a, readSigma ,list(a,list(a,nil))).delta(readSigma, nix, a, dele, list(a,nil)).delta(readSigma, b, a, dele ,nil).delta(dele, b, a, dele,nil).delta(dele, nix, raute, dele ,nil).startZ(readSigma).startKeller(raute).sigma_stern(nil).sigma_stern(list(W, Rs)) :- sigma(W), sigma_stern(Rs).lappend(nil, Xs, Xs).lappend(list(X, Rs), Xs, list(X, Ns)) :- lappend(Rs, Xs, Ns).es(Zustand, list(W, WRs) , list(G,GRs), ZNext, WRs, Stack_neu) :- delta(Zustand, W, G, ZNext, WriteBack), lappend(WriteBack, GRs, Stack_neu).es(Zustand, W, list(G, GRs), ZNext, W, Stack_neu) :- delta(Zustand, nix, G, ZNext, WriteBack), lappend(WriteBack, GRs, Stack_neu).es_plus(Z0, W, G, Z1, WNeu, GNeu) :- es(Z0, W, G, Z1 , WNeu, GNeu).es_plus(Z0, W, G, ZNeu, WRs, Stack_neu) :- es(Z0, W, G, ZNext, WRest, Stack), es_plus(ZNext, WRest, Stack, ZNeu, WRs, Stack_neu).lVonM(Ws) :- startZ(Z0), zustand(EndZ), startKeller(K) , es_plus(Z0, Ws, list(K,nil), EndZ, nil, nil).".
(** test_src/p5-1.pl *)
Definition src_p5_1_pl := "%program_code.push_back(""zustand(readSigma)."");
%program_code.push_back(""zustand(dele)."");
%program_code.push_back(""sigma(a)."");
%program_code.push_back(""sigma(b)."");
%program_code.push_back(""kellerSym(raute)."");
%program_code.push_back(""kellerSym(a)."");
%program_code.push_back(""delta(readSigma, nix, raute, readSigma ,nil)."");
%program_code.push_back(""delta(readSigma, a, raute, readSigma ,list(a,list(raute,nil)))."");
%program_code.push_back(""delta(readSigma, a, a, readSigma ,list(a,list(a,nil)))."");
%program_code.push_back(""delta(readSigma, nix, a, dele, list(a,nil))."");
%program_code.push_back(""delta(readSigma, b, a, dele ,nil)."");
%program_code.push_back(""delta(dele, b, a, dele ,nil)."");
%program_code.push_back(""delta(dele, nix, raute, dele ,nil)."");
%program_code.push_back(""startZ(readSigma)."");
%program_code.push_back(""startKeller(raute)."");
%program_code.push_back(""sigma_stern(nil)."");
%program_code.push_back(""sigma_stern(list(W, Rs) :- sigma(W), sigma_stern(Rs)."");
%program_code.push_back(""lappendl(nil, Xs, Xs)."");
%program_code.push_back(""lappendl(list(X, Rs), Xs, list(X, Ns)) :- lappendl(Rs, Xs, Ns)."");
%program_code.push_back(""es(Zustand, list(W, WRs) , list(G,GRs), ZNext, WRs, Stack_neu) :- delta(Zustand, W, G, ZNext, WriteBack), lappendl(Wri%teBack, GRs, Stack_neu)."");
%program_code.push_back(""es(Zustand, W, list(G, GRs), ZNext, W, Stack_neu) :- delta(Zustand, nix, G, ZNext, WriteBack), lappendl(WriteBack, GRs%, Stack_neu)."");
%program_code.push_back(""es_plus(Z0, W, G, Z1, WNeu, GNeu) :- es(Z0, W, G, Z1 , WNeu, GNeu)."");
%program_code.push_back(""es_plus(Z0, W, G, ZNeu, WRs, Stack_neu) :- es(Z0, W, G, ZNext, WRest, Stack), es_plus(ZNext, WRest, Stack, ZNeu, WRs,% Stack_neu)."");
%program_code.push_back(""lVonM(Ws) :- startZ(Z0), zustand(EndZ), startKeller(K) , es_plus(Z0, Ws, list(K,nil), EndZ, nil, nil)."");

zustand(readSigma).
zustand(dele).
sigma(a).
sigma(b).
kellerSym(raute).
kellerSym(a).
delta(readSigma, nix, raute, readSigma ,nil).
delta(readSigma, a, raute, readSigma ,list(a,list(raute,nil))).
delta(readSigma, a, a, readSigma ,list(a,list(a,nil))).
delta(readSigma, nix, a, dele, list(a,nil)).
delta(readSigma, b, a, dele ,nil).
delta(dele, b, a, dele ,nil).
delta(dele, nix, raute, dele ,nil).
startZ(readSigma).
startKeller(raute).
sigma_stern(nil).
sigma_stern(list(W, Rs)) :- sigma(W), sigma_stern(Rs).
lappendl(nil, Xs, Xs).
lappendl(list(X, Rs), Xs, list(X, Ns)) :- lappendl(Rs, Xs, Ns).
es(Zustand, list(W, WRs) , list(G,GRs), ZNext, WRs, Stack_neu) :- delta(Zustand, W, G, ZNext, WriteBack), lappendl(WriteBack, GRs, Stack_neu).
es(Zustand, W, list(G, GRs), ZNext, W, Stack_neu) :- delta(Zustand, nix, G, ZNext, WriteBack), lappendl(WriteBack, GRs, Stack_neu).
es_plus(Z0, W, G, Z1, WNeu, GNeu) :- es(Z0, W, G, Z1 , WNeu, GNeu).
es_plus(Z0, W, G, ZNeu, WRs, Stack_neu) :- es(Z0, W, G, ZNext, WRest, Stack), es_plus(ZNext, WRest, Stack, ZNeu, WRs, Stack_neu).
lVonM(Ws) :- startZ(Z0), zustand(EndZ), startKeller(K) , es_plus(Z0, Ws, list(K,nil), EndZ, nil, nil).
".
(** test_src/p4-2.pl *)
Definition src_p4_2_pl := "%wort besteht mindestens aus aba
%        a     b
% ->z0 z0/z1  z0
%   z1   x    z2
%   z2  end   x
% * end end  end
 
%Aufgabe a)
zustand(z0).
zustand(z1).
zustand(z2).
zustand(end).
sigma(a).
sigma(b).
deltaf(z0,a,z1).
deltaf(z0,a,z0).
deltaf(z0,b,z0).
deltaf(z1,b,z2).
deltaf(z2,a,end).
deltaf(end,a,end).
deltaf(end,b,end).
start(z0).
end(end).

%Aufgabe b)

sigma_stern([]).
sigma_stern([X|Ws]):-sigma(X),sigma_stern(Ws).
lvonN(Ws):-start(S),delta_stern(S,Ws,Y),end(Y),sigma_stern(Ws).
delta(Zakt,A,Zneu):-deltaf(Zakt,A,Zneu).
delta_stern(Zakt,[],Zakt).
delta_stern(Zakt,[X|Ws],Zneu):-delta(Zakt,X,L),delta_stern(L,Ws,Zneu).
".
Definition program_10 := "h(1).o(X) :- h(X).nat(2).nat(1).one(X) :- nat(X), o(X).two(2).l([a, b, [Y, [X]]], f(b([a, [a] | [Z]]))) :- one(Y), one(X), two(Z).".
(** test_src/arithmetic.pl *)
Definition src_arithmetic_pl := "% hi
natSymb(o). % hi
natSymb(s(A)) :- natSymb(A). % wenn A ein natsymb ist, muss auch s(A) eins sein
 
%I.A.
add(o, A, A).
 
%I.S.: quasi ""umschichten"". B wird abgebaut, A aufgebaut fuer jeden Schritt
add(s(A), B, C) :- natSymb(A), natSymb(B), natSymb(C), add(A, s(B), C).
 
%I.A.
mult(o, X, o).
%I.S.: siehe Übung 1
mult(s(A), B, C) :- mult(A, B, D), add(D, B, C).
 
% X mit o addiert muss wieder o sein, dann gilt X=0
%eqZero(X) :-  natSymb(X), add(o, X, o).
 
%o equals zero. always.
eqZero(o).
 
%wenn A ein natSymb ist, ist s(A) auch eins. Da es natSymb nur fuer A>0 gibt, ist diese
%Bedingung nur erfuellt, wenn A > 0
neqZero(s(X)) :-  natSymb(X).
 
less(o, s(A)).
less(s(X), s(s(Y))) :- less(X, s(Y)), natSymb(X), natSymb(Y).
 
square(X, Y) :- mult(X, X, Y).
 
exp(A, o, s(o)).
 
%y mal x miteinander multen x^y = B
exp(X, s(Y), B) :- exp(X, Y, A), mult(A, X, B), natSymb(X), natSymb(Y), natSymb(B).
 
log(X, Y, A) :- exp(X, A, Y).
 
 
% list(o, list(s(o), list(s(s(o)), nil))).
 
natList(nil).
natList(list(A, T)) :- natSymb(A), natList(T).
 
invList(list(o, nil)).
invList(list(s(A), list(A, B))) :- invList(list(A, B)).
 
% A ist head von Bs
head(list(A, Bs), A) :- natList(Bs).
tail(list(A, Bs), Bs) :- natList(Bs).
 
appendl(nil, As, As).
appendl(list(D, As), Bs, list(D, Cs)) :- appendl(As, Bs, Cs).
 
% Aufgabe 20
% Die leere Liste hat keine Elemente
anz(nil, o).
% wenn Xs N Elemente hat, dann hat Xs mit einem Element davor ein Element mehr
anz(list(A_Y, Xs), s(N)) :- anz(Xs, N).
 
% Aufgabe 21
% baum: nib ist der leere baum
binbaum(nib).
% wenn Ab und Bb Teilbaeume sind, dann kann der naechsthoehere Baum diese beiden enthalten
binbaum(knoten(A, Ab, Bb)) :- binbaum(Ab), binbaum(Bb).
 
% root(Xb, Y) :- Y ist der Wurzeleintrag des binaerbaums Xb
root(binbaum(knoten(X, Ab, Bb)), X) :- binbaum(Ab), binbaum(Bb).
 
% left(Xb, Yb) :- Yb ist der linke Teilbaum von Xb.
left(binbaum(knoten(A_X, Ab, Bb)), Ab) :- binbaum(Ab), binbaum(Bb).
 
% right(Xb, Yb) :- Yb ist der rechte Teilbaum von Xb
right(binbaum(knoten(A_X, Ab, Bb)), Bb) :- binbaum(Ab), binbaum(Bb).
".
(** test_src/p1.pl *)
Definition src_p1_pl := "% Author:
% Date: 14/04/2020

eltern(e1,k1).
eltern(e2,k1).
eltern(e1,k2).
eltern(e2,k2).
maennlich(e1).
weiblich(e2).
maennlich(k1).
weiblich(k2).

%durch Angabe von Fakten. braucht man für vater und mutter.
vater(X,Y) :- eltern(X,Y), maennlich(X).
% X ist vater von Y.
mutter(X,Y) :- eltern(X,Y), weiblich(X).
% X ist mutter von Y
sohn(X,Y) :- kind(X,Y), maennlich(X).

% X ist sohn von Y.
tochter(X,Y) :- kind(X,Y), weiblich(X).
% X ist tochter von Y.
bruder(X,Y) :- maennlich(X), ges(X,Y).
% X ist bruder von Y.
schwester(X,Y) :- weiblich(X), ges(X,Y).


kind(X,Y) :- eltern(Y,X).
% X ist kind von Y.

% X ist geschwister von Y.
%onkel(X,Y) :- maennlich(X), ges(X,R), eltern(R,Y).
% X ist Onkel von Y.
cousine(X,Y) :- weiblich(X), ges(M,R), eltern(M,X), eltern(R,Y).
% X ist cousine von Y.
grossvater(X,Y) :- vater(X,G), eltern(G,Y).
% X ist großvater von Y.

isNotSame(X,Y) :- X\==Y.

a(x(H,f)).
b(x(H,f)).
neq(X,Y) :- a(X), b(Y), X \== Y.
".
(** test_src/p3-0.pl *)
Definition src_p3_0_pl := "% Aufgabe 1
% praefix(Xs, Ys) : Ys beginnt mit Xs
praefix(Xs, Ys) :- appendl(Xs, A_Es, Ys).

% postfix(Xs,Ys) : Ys endet mit der Liste Xs.
postfix1(Xs, Ys) :- reverse(Xs, Xsr), praefix(Xsr, Xsprae), reverse(Xsprae, Ys).

postfix2(Xs, Ys) :- appendl(A_Es, Xs, Ys).


% Aufgabe 2
% baum: e ist der leere baum
binbaum(e).
% wenn Ab und Bb Teilbäume sind, dann kann der nächsthöhere Baum diese beiden enthalten
binbaum(n(X, Ab, Bb)) :- binbaum(Ab), binbaum(Bb).

% member(X,Xb) : Baum Xb enthält den Eintrag X.
member(X, n(X, Lb, Rb)) :- binbaum(Lb), binbaum(Rb).
member(X, n(Y, Lb, Rb)) :- member(X, Lb), binbaum(Lb), binbaum(Rb).
member(X, n(Y, Lb, Rb)) :- member(X, Rb), binbaum(Lb), binbaum(Rb).


% Aufgabe 3
% präorder(Xb,Ys) : Ys ist die Liste der Knotenbeschriftungen des Binärbaumes Xb in Präorder.
praeorder(e, []).
praeorder(n(Root, Lb, Rb), Ys) :- praeorder(Lb, Ls), praeorder(Rb, Rs), appendl([Root | Ls], Rs, Ys).

% postorder(Xb,Ys) : Ys ist die Liste der Knotenbeschriftungen des Binärbaumes Xb in Postorder.
postorder(e, []).
% die appendls müssen auf die andere seite, je nachdem welche query man stellt (welcher baum erzeugt Xs vs welche postorder kommt durch baum Xb) 
postorder(n(Root, Lb, Rb), Ys) :-  postorder(Lb, Ls), postorder(Rb, Rs), appendl(Rs, [Root], Rroots), appendl(Ls, Rroots, Ys).

% roots(Xbs,Ys) : Xbs ist eine Liste von Binärbäumen (geschachtelte Induktion).
% Die Liste Ys ist die Liste der Wurzelbeschriftungen der Binärbäume in Xbs
% in der richtigen Reihenfolge. Beachten Sie, dass ein leerer Binärbaum keine
% Wurzelbeschriftung hat und diese somit auch nicht aufgeführt wird.
roots([], []).
roots([e | Xbs], Ys) :- roots(Xbs, Ys).
roots([n(X, Lb, Rb) | Xbs], [X | Ys]) :- roots(Xbs, Ys).







".
(** test_src/p5-0.pl *)
Definition src_p5_0_pl := "% pda von abb 9.8 (M-Palin ab)

zustand(za).
sigma(a).
sigma(b).
gamma(a).
gamma(b).
gamma(s).

delta(za, a, a, za, []).
delta(za, b, b, za, []).
delta(za, nix, s, za, []).
delta(za, nix, s, za, [a]).
delta(za, nix, s, za, [b]).
delta(za, nix, s, za, [a, s, a]).
delta(za, nix, s, za, [b, s, b]).

startz(za).
kellerboden(s).

appendl([], Xs,Xs).
appendl([X|Xs], Ys,[X | Rs]) :- appendl(Xs, Ys , Rs).

% aufgabe b
% einzelschrittrelation (9.4)
es(Zakt, [A | Ws], [Kpop | Kbleibt], Zneu, Ws, Kapp) :-
    delta(Zakt, A, Kpop, Zneu, Kpush),
    appendl(Kpush, Kbleibt, Kapp).

es(Zakt, Ws, [Kpop | Kbleibt], Zneu, Ws, Kapp) :-
    delta(Zakt, nix, Kpop, Zneu, Kpush),
    appendl(Kpush, Kbleibt, Kapp).

% transitiver abschluss - mehrere Schritte
es_plus(Zakt, W, K, Zneu, Wneu, Kneu)
	:- es(Zakt, W, K, Zneu, Wneu, Kneu).

es_plus(Zakt, Wakts, Kakts, Zneu, Wneus, Kneus) :-
    es(Zakt, Wakts, Kakts, Zuebergang, Wuebergangs, Kuebergangs),
    es_plus(Zuebergang, Wuebergangs, Kuebergangs, Zneu, Wneus, Kneus).

% menge der wörter über sigma
sigma_stern([]).
sigma_stern([A | Ws]) :- sigma(A), sigma_stern(Ws).

% wörter im keller
gamma_stern([]).
gamma_stern([A|Ws]) :- gamma(A), gamma_stern(Ws).

% von pda erkannte sprache (9.5)
lvonM(Ws) :- kellerboden(K),startz(Zakt),  zustand(Zneu),es_plus(Zakt, Ws, [K], Zneu, [], []).
".
(** test_src/p4-0.pl *)
Definition src_p4_0_pl := "% NEA von bsp 8.12 (end01)
vari(vS).
vari(vA).
vari(vend).
sigma(b).
sigma(a).
start(vS).
delta(vA, a, vend). 
% ende und anfang müssen nach oben, da diese bevorzugt genommen werden müssen
delta(vS, b, vA).
delta(vS, b, vS).
delta(vS, a, vS).
end(vend).

sigma_stern(A_X).
sigma_stern([X|Xs]) :- sigma(X), sigma_stern(Xs).

delta_stern(Zakt, [], Zakt).
delta_stern(Zakt, [X|Xs], Zneu) :- delta(Zakt, X, Zuebergang), delta_stern(Zuebergang, Xs, Zneu).
lvonN(Ws) :- start(Za), end(E), delta_stern(Za, Ws, E), sigma_stern(Ws). 
% sigma stern muss ans ende, sonst läuft man in die unendlichkeit des sigmas
".
(** test_src/p4-1.pl *)
Definition src_p4_1_pl := "sigma(a).
sigma(b).

zustand(za).
zustand(zb).

delta(za,a,zb).
delta(za,b,zb).
delta(zb,a,za).
delta(zb,b,za).

start_zustand(za).
end_zustand(za).

delta_stern(Zustandaktuell,[],Zustandaktuell).
delta_stern(Zustandaktuell,[X|Xs],Zustandneu):- zustand(Zneu),delta(Zustandaktuell,X,Zneu),delta_stern(Zneu,Xs,Zustandneu).

sigma_stern([]).
sigma_stern([X|Xs]) :- sigma(X), sigma_stern(Xs).

lvongbb(Ws) :- start_zustand(S), end_zustand(E),sigma_stern(Ws),delta_stern(S,Ws,E).


























".
(** test_src/p5-2.pl *)
Definition src_p5_2_pl := "%wort besteht aus gleich vielen bs wie as
%S->e
%S->aSb
%
%definition 9.2
zustand(z0).
zustand(z1).
zustand(z2).
 
sigma(a).
sigma(b).
 
kelleralphabet(a).
kelleralphabet(b).
kelleralphabet(c).
 
deltaf(z0,a,c,z0,[a,c]).
deltaf(z0,a,a,z0,[a,a]).
deltaf(z0,b,a,z1,[]).
deltaf(z1,b,a,z1,[]).
deltaf(z1,nix,c,z2,[]).
 
start(z0).
kellersymbol(c).
 
appendl([],Xs,Xs).
appendl([X|Xs] , Ys, [X|Rs]) :- appendl(Xs, Ys, Rs).
%abbildung 7.2 
sigma_stern([]).
sigma_stern([X|Ws]):-sigma(X),sigma_stern(Ws).
 
%definition 9.5, definition 9.2
lVonM(Ws):-start(S),kellersymbol(Boden),zustand(NewState),es_plus(S,Ws,[Boden],NewState,[],[]).

%definition 5.3/ 5.4
es_plus(S,Ws,Stacks,NeuS,WNs,NeuStacks):-es(S,Ws,Stacks,NeuS,WNs,NeuStacks).
es_plus(S,Ws,Stacks,NeuerZu,WNs,NeuStacks):-es(S, Ws, Stacks, NeuS, Wes, NeuStackess),es_plus(NeuS,Wes,NeuStackess,NeuerZu,WNs,NeuStacks).
%definition 9.4
es(S,[A|W],[Top|Stacks],NeuS,W,NeuStacks):-deltaf(S, A, Top, NeuS, AufStack),appendl(AufStack, Stacks, NeuStacks).
es(S,W,[Top|Stacks],NeuS,W,NeuStacks):-deltaf(S,nix,Top, NeuS, AufStack),appendl(AufStack, Stacks, NeuStacks).
".
Definition program_11 := "natSymb(o). %o ist ein natsymb
natSymb(s(A)) :- natSymb(A). %o ist ein natsymb
test(X) :- test(X).
test(a).
test(b).".
(** test_src/wegLange1.pl *)
Definition src_wegLange1_pl := "natSymb(o).
natSymb(s(X)) :- natSymb(X).

% aus Graph
kante(a,b).
kante(a,c).
kante(b,c). 
kante(b,d). 
kante(b,e). 
kante(c,d). 
kante(e,c). 
kante(e,d).
% ende aus Graph

% extra
kante(e,f).


% IA: es gibt eine weg von X zu sich selbst
weg(X, X).

% IS: wenn es eine Kante von X zu einem imaginären U gibt (ein Schritt)
% dann gibt einen weg (mehrere Kanten) von U nach Y
weg(X, Y) :- kante(X, U), weg(U, Y). 

% IA: der weg von X zu sich selbst ist o lang
wegLaenge(X, X, o).

% IS: baut auf der Idee von weg() auf, außer dass Laenge als Teil der Relation
% mitgezogen wird. Wenn der Teilweg ""laenge"" lang ist, dann ist der Weg im naechsten
% Schritt (+1 Kante) s(Laenge) lang.
wegLaenge(X, Y, s(Laenge)) :- kante(X, U), wegLaenge(U, Y, Laenge), natSymb(Laenge).
".

(** bfs_organizer_L1_test.cpp *)
Example test_bfs_organizer_L1_test : True.
Proof.
  expect (binds "a." "a." []). (* 25 *)
  expect (no_answer "a." "b."). (* 36 *)
  expect (binds "p(f(X),h(Y,f(a)),Y)." "p(Z,h(Z,W),f(W))." [("W", "f(a)"); ("Z", "f(f(a))")]). (* 47 *)
  expect (binds "f(X)." "f(g)." []). (* 65 *)
  expect (binds "f(Lhs, Rhs)." "f(a, b)." []). (* 76 *)
  expect (no_answer "r(Z,h(Z,f(a)),f(Z))." "r(x,h(Z,W),f(g))."). (* 86 *)
  expect (no_answer "r(x)." "r(x,x)."). (* 94 *)
  expect (no_answer "r(x)." "r(f(X),h(a,b),x)."). (* 102 *)
  expect (binds "r(f(a),h(D,Z))." "r(f(X),h(a,b))." [("X", "a")]). (* 110 *)
  expect (binds "r(f(a),h(D,Z),J)." "r(f(X),h(a,b),x)." [("X", "a")]). (* 124 *)
  expect (binds "r(f(f(f(a))),h(f(f(f(f(b)))),b))." "r(f(f(f(X))),h(f(f(f(f(Z)))),b))." [("X", "a"); ("Z", "b")]). (* 138 *)
  expect (binds "r(f(h(a,f(f(b)))),h(f(f(f(f(b)))),b))." "r(f(h(X,f(f(Z)))),h(f(f(f(f(Z)))),Y))." [("X", "a"); ("Z", "b"); ("Y", "b")]). (* 152 *)
  expect (no_answer "r(f(h(a,f(f(b)))),h(f(f(f(f(b)))),b))." "r(f(h(X,f(f(Z)))),h(f(f(f(f(Z)))),X))."). (* 172 *)
  exact I.
Qed.

(** bfs_organizer_L2_test.cpp *)
Example test_bfs_organizer_L2_test : True.
Proof.
  expect (binds program_1 "p(X,Y)." [("X", "x"); ("Y", "y")]). (* 44 *)
  expect (binds program_1 "a(A,B)." [("A", "a"); ("B", "b")]). (* 56 *)
  expect (binds program_1 "h(g(f(A),X),f(b),f(F))." [("A", "a"); ("X", "x"); ("F", "g(h(x,y,b),c)")]). (* 69 *)
  expect (binds program_1 "h(g(f(A),X),f(b),f(F)), p(X,Y), a(A,B)." [("A", "a"); ("X", "x"); ("B", "b"); ("Y", "y"); ("F", "g(h(x,y,b),c)")]). (* 84-145 *)
  expect (binds program_1 "h(g(f(A),X),f(b),f(F)), p(X,Y), a(A,B),p(X,Y), a(A,B)." [("A", "a"); ("X", "x"); ("B", "b"); ("Y", "y"); ("F", "g(h(x,y,b),c)")]).
  expect (binds program_1 "h(g(f(A),X),f(b),f(F)), a, p(X,Y),b, a(A,B),p(X,Y), c,a(A,B),d." [("A", "a"); ("X", "x"); ("B", "b"); ("Y", "y"); ("F", "g(h(x,y,b),c)")]).
  expect (binds program_1 "a,d ,h(g(f(A),X),f(b),f(F)), a, p(X,Y),b, a(A,B),p(X,Y), c,a(A,B),d." [("A", "a"); ("X", "x"); ("B", "b"); ("Y", "y"); ("F", "g(h(x,y,b),c)")]).
  expect (no_answer program_1 "a,d ,h(g(f(A),X),f(b),f(F)), a,fault, p(X,Y),b, a(A,B),p(X,Y), c,a(A,B),d."). (* 150 *)
  exact I.
Qed.

(** bfs_organizer_L3_test.cpp *)
Example test_bfs_organizer_L3_test : True.
Proof.
  expect (has_answer program_2 "l([a, b, [a, [a]]], f(b([a, [a] | [b]])))."). (* 13 *)
  expect (binds program_3 "z(A)." [("A", "a")]). (* 56 *)
  expect (binds program_3 "z(A), p(X,y), z(A), a(A,b)." [("A", "a"); ("X", "x")]). (* 86 *)
  expect (all_answers 10 program_4 "x(A)." ["a"; "b"]). (* 100 *)
  expect (all_answers 10 program_5 "x(A)." ["a"; "b"]). (* 120 *)
  expect (each_twice 20 program_6 "x(A), z(A), g(A,B)." ["a"; "f(b)"; "f(h(f(d),a,b))"]). (* 140 *)
  exact I.
Qed.

(** bfs_organizer_list_test.cpp *)
Example test_bfs_organizer_list_test : True.
Proof.
  expect (binds "p([a,b],[a,b,c],[a,b,c,d])." "p([A,B], [A,b,C], Z)." [("A", "a"); ("B", "b"); ("C", "c"); ("Z", "[a,b,c,d]")]).
  expect (binds "append([a | B])." "append([a,b])." []).
  expect (binds "append([a | R])." "append([a,b,c])." []).
  expect (binds "f([a,b])." "f([a| B ])." [("B", "[b]")]).
  expect (binds "" "append(Z, [a], [a])." [("Z", "[]")]).
  expect (binds "" "append(Z, [b, c], [a, b, c])." [("Z", "[a]")]).
  expect (binds "" "append([a],Z, [a,b])." [("Z", "[b]")]).
  expect (binds "" "append([a,b,c],[d,e], Z)." [("Z", "[a,b,c,d,e]")]).
  expect (binds "" "append([a,b],[], Z)." [("Z", "[a,b]")]).
  expect (binds "f([[a]])." "f([A])." [("A", "[a]")]).
  expect (binds "f([[a], [b], [c]])." "f([A, B | C])." [("A", "[a]"); ("B", "[b]"); ("C", "[[c]]")]).
  expect (has_answer "r([a, b, c])." "r(Z).").
  expect (has_answer "g([[a,b], [a,Y] | X])." "g(Z).").
  expect (has_answer "r(f(a)) :- g(H).g(d)." "r(Z).").
  expect (binds "r([a, b, c]) :- g(H).g([[d,e], [f, Y ] | X])." "r(Z)." [("Z", "[a,b,c]")]).
  expect (binds "g([[a,Y]])." "g(Z)." [("Z", "[[a,Y9]]")]).
  exact I.
Qed.

(** list_test.cpp *)
Example test_list_test : True.
Proof.
  expect (binds program_7 "l(X), len(X, Y)" [("X", "[1]"); ("Y", "1")]). (* 13 *)
  expect (answers_are program_8 "alt(X), len(X, R)" [[("X", "[]"); ("R", "0")]; [("X", "[1,0]"); ("R", "2")]; [("X", "[1,0,1,0]"); ("R", "4")]]). (* 31 *)
  expect (answers_are "istdrin(X, [X|Xs]).istdrin(X, [Y|Xs]) :- istdrin(X, Xs)." "istdrin(a, Zs)" [[("Zs", "[a|Xs]")]; [("Zs", "[Y3,a|Xs]")]; [("Zs", "[Y3,Y6,a|Xs1]")]]). (* 60 *)
  exact I.
Qed.

(** practical5_test_list.cpp *)
Example test_practical5_test_list : True.
Proof.
  expect (binds program_9 "startZ(Z)." [("Z", "readSigma")]).
  expect (all_answers 10 program_9 "zustand(Z)." ["readSigma"; "dele"]).
  expect (first_binding program_9 "lappend(list(a,list(b,list(c,nil))),list(d,list(e,list(f,nil))),Z)." "list(a,list(b,list(c,list(d,list(e,list(f,nil))))))").
  expect (first_binding program_9 "lappend(nil, list(a,list(b,nil)),Z)." "list(a,list(b,nil))").
  expect (first_binding program_9 "lappend(list(a,list(b, nil)),nil, Z)." "list(a,list(b,nil))").
  expect (all_answers 10 program_9 "es(readSigma, list(a,nil), list(raute,nil), ZN, nil,list(a,list(raute,nil)))." ["readSigma"]).
  expect (has_answer program_9 "es_plus(readSigma, list(a,list(b,nil)), list(raute,nil), dele, nil,nil).").
  expect (has_answer program_9 "lVonM(Z).").
  exact I.
Qed.

(** p5-1_test.cpp *)
Example test_p5_1_test : True.
Proof.
  expect (has_answer src_p5_1_pl "lVonM(list(nix,nil)).").
  expect (no_answer src_p5_1_pl "lVonM( list(a,nil)).").
  expect (answers_among 12 src_p5_1_pl "lVonM(Z)." ["nil"; "list(nix,nil)"; "list(a,list(b,nil))"; "list(a,list(b,list(nix,nil)))"; "list(a,list(b,nil))"; "list(a,list(b,list(nix,nil)))"; "list(a,list(nix,list(b,nil)))"; "list(a,list(nix,list(b,list(nix,nil))))"; "list(a,list(a,list(b,list(b,nil))))"; "list(a,list(a,list(b,list(b,list(nix,nil)))))"; "list(a,list(a,list(b,list(b,nil))))"; "list(a,list(a,list(b,list(b,list(nix,nil)))))"; "list(a,list(a,list(nix,list(b,list(b,nil)))))"; "list(a,list(a,list(nix,list(b,list(b,list(nix,nil))))))"; "list(a,list(a,list(a,list(b,list(b,list(b,nil))))))"; "list(a,list(a,list(a,list(b,list(b,list(b,list(nix,nil)))))))"; "list(a,list(a,list(a,list(b,list(b,list(b,nil))))))"; "list(a,list(a,list(a,list(b,list(b,list(b,list(nix,nil)))))))"; "list(a,list(a,list(a,list(nix,list(b,list(b,list(b,nil)))))))"; "list(a,list(a,list(a,list(nix,list(b,list(b,list(b,list(nix,nil))))))))"; "list(a,list(a,list(a,list(a,list(b,list(b,list(b,list(b,nil))))))))"; "list(a,list(a,list(a,list(a,list(b,list(b,list(b,list(b,list(nix,nil)))))))))"; "list(a,list(a,list(a,list(a,list(b,list(b,list(b,list(b,nil))))))))"; "list(a,list(a,list(a,list(a,list(b,list(b,list(b,list(b,list(nix,nil)))))))))"; "list(a,list(a,list(a,list(a,list(nix,list(b,list(b,list(b,list(b,nil)))))))))"; "list(a,list(a,list(a,list(a,list(nix,list(b,list(b,list(b,list(b,list(nix,nil))))))))))"] 14). (* 12 of the 26 answers *)
  exact I.
Qed.

(** p4-2_test.cpp *)
Example test_p4_2_test : True.
Proof.
  expect (no_answer src_p4_2_pl "lvonN([b,a]).").
  expect (no_answer src_p4_2_pl "lvonN([b,b,b,a]).").
  exact I.
Qed.

(** integers.cpp *)
Example test_integers : True.
Proof.
  expect (first_binding "a(1)." "a(X)." "1").
  expect (binds program_10 "l([Y, b, [1, [X]]], f(b([a, [a] | [Z]])))." [("Y", "a"); ("X", "1"); ("Z", "2")]).
  expect (answers_are "alt([]).alt([1, 0 | R]) :- alt(R)." "alt(X)." [[("X", "[]")]; [("X", "[1,0]")]; [("X", "[1,0,1,0]")]]).
  exact I.
Qed.

(** built_in_preds/append.cpp *)
Example test_built_in_preds_append : True.
Proof.
  expect (has_answer "" "append([], [a], [a])").
  expect (first_binding "" "append([a,[X],c], [1], Z)." "[a,[X],c,1]").
  expect (loads_with "append(bla, bla, bla)." (LErr CRedef)).
  exact I.
Qed.

(** built_in_preds/equals_pred.cpp *)
Example test_built_in_preds_equals_pred : True.
Proof.
  expect (has_answer "eq(X, Y) :- X == Y." "eq(a, a).").
  expect (tree_made 1 "eq(X, Y) :- X == Y." "eq(a, a).").
  expect (has_answer "a(a).b(a).eq(X,Y) :- a(X), b(Y), X == Y." "eq(X, Y).").
  expect (tree_made 1 "a(a).b(a).eq(X,Y) :- a(X), b(Y), X == Y." "eq(X, Y).").
  expect (no_answer "a(a).b(b).eq(X,Y) :- a(X), b(Y), X == Y." "eq(X, Y).").
  expect (tree_made 1 "a(a).b(b).eq(X,Y) :- a(X), b(Y), X == Y." "eq(X, Y).").
  expect (no_answer "a(x(d,f)).b(x(e,f)).eq(X,Y) :- a(X), b(Y), X == Y." "eq(X, Y).").
  expect (tree_made 1 "a(x(d,f)).b(x(e,f)).eq(X,Y) :- a(X), b(Y), X == Y." "eq(X, Y).").
  expect (no_answer "a(x(H,f)).b(x(G,f)).eq(X,Y) :- a(X), b(Y), X == Y." "eq(X, Y).").
  expect (tree_made 1 "a(x(H,f)).b(x(G,f)).eq(X,Y) :- a(X), b(Y), X == Y." "eq(X, Y).").
  expect (has_answer "" "X == X.").
  expect (tree_made 1 "" "X == X.").
  expect (no_answer "" "Y == X.").
  expect (tree_made 1 "" "Y == X.").
  expect (no_answer "a(X).b(X).eq(X,Y) :- a(X), b(Y), X == Y." "eq(A,B).").
  expect (tree_made 1 "a(X).b(X).eq(X,Y) :- a(X), b(Y), X == Y." "eq(A,B).").
  expect (has_answer "eq(X, X) :- X == X." "eq(X, X).").
  expect (tree_made 1 "eq(X, X) :- X == X." "eq(X, X).").
  expect (has_answer "" "3 == 3.").
  expect (tree_made 1 "" "3 == 3.").
  expect (no_answer "" "3 ==4.").
  expect (tree_made 1 "" "3 ==4.").
  expect (has_answer "" "a == a.").
  expect (tree_made 1 "" "a == a.").
  expect (no_answer "" "a == b.").
  expect (tree_made 1 "" "a == b.").
  exact I.
Qed.

(** built_in_preds/not_equals_pred.cpp *)
Example test_built_in_preds_not_equals_pred : True.
Proof.
  expect (has_answer "eq(X, Y) :- X \== Y." "eq(b, a).").
  expect (has_answer "a(a).b(b).eq(X,Y) :- a(X), b(Y), X \== Y." "eq(X, Y).").
  expect (no_answer "a(a).b(a).eq(X,Y) :- a(X), b(Y), X \== Y." "eq(X, Y).").
  expect (no_answer "a(x(d,f)).b(x(d,f)).eq(X,Y) :- a(X), b(Y), X \== Y." "eq(X, Y).").
  expect (has_answer "a(x(H,f)).b(x(H,f)).eq(X,Y) :- a(X), b(Y), X \== Y." "eq(X, Y).").
  expect (no_answer "" "X \== X.").
  expect (has_answer "" "Y \== X.").
  expect (has_answer "a(X).b(X).eq(X,Y) :- a(X), b(Y), X \== Y." "eq(A,B).").
  exact I.
Qed.

(** arithmetic.cpp *)
Example test_arithmetic : True.
Proof.
  expect (first_error "" "X is 1 // 0." (fun e => match e with EDivBy0 => true | _ => false end)). (* 15 *)
  expect (query_loads_with "X is 1 + Y." (LErr CNotInst)). (* 23 *)
  expect (first_error "c(a).f(g(a)).l([])." "f(Y), X is Y." (fun e => match e with ENotArith _ => true | _ => false end)). (* 30 *)
  expect (first_error "c(a).f(g(a)).l([])." "l(Y), X is Y." (fun e => match e with ENotArith _ => true | _ => false end)).
  expect (first_error "c(a).f(g(a)).l([])." "c(Y), X is Y." (fun e => match e with ENotArith _ => true | _ => false end)).
  expect (match validate_query "X is 1 / 0." with Some r => reports_error r | None => false end). (* 53 *)
  exact I.
Qed.

(** arith_no_ints.cpp *)
Example test_arith_no_ints : True.
Proof.
  expect (first_binding src_arithmetic_pl "mult(s(o),s(s(s(o))),Z)." "s(s(s(o)))").
  exact I.
Qed.

(** built_in_preds/arithmetic/is.cpp *)
Example test_built_in_preds_arithmetic_is : True.
Proof.
  expect (first_binding "" "X is 3." "3").
  expect (has_answer "" "3 is 3.").
  expect (first_binding "" "X is 3 + 3." "6").
  expect (has_answer "" "6 is 3 + 3.").
  expect (first_binding "" "X is 3 - 4." "-1").
  expect (has_answer "" "-1 is 3 - 4.").
  expect (first_binding "" "X is 3 * 3." "9").
  expect (has_answer "" "9 is 3 * 3.").
  expect (first_binding "" "X is 9 // 3." "3").
  expect (has_answer "" "3 is 9 // 3.").
  expect (first_binding "" "X is 2^3." "8").
  expect (has_answer "" "8 is 2^3.").
  expect (first_binding "" "X is 3 * 3 - 1." "8").
  expect (has_answer "" "8 is 3 * 3 - 1.").
  expect (first_binding "" "X is (4 + 4) * 4 - ((2 + 3)*2)." "22").
  expect (has_answer "" "22 is (4 + 4) * 4 - ((2 + 3)*2).").
  expect (first_binding "" "X is 2 ^ 3 * 4." "32").
  expect (has_answer "" "32 is 2 ^ 3 * 4.").
  expect (first_binding "" "X is (((3^2)-1)*1+2) - 10." "0").
  expect (has_answer "" "0 is (((3^2)-1)*1+2) - 10.").
  expect (binds "e(1 + 1)." "e(Y), X is Y" [("X", "2"); ("Y", "(1 + 1)")]).
  expect (no_answer "" "[] is 3.").
  expect (no_answer "" "a is 3.").
  expect (no_answer "" "f(a) is 3.").
  expect (binds "add(X, X + 1).min(X, X - 1).double(X, X * 2).div(X, X // 2)." "add(X, A),add(A, B),double(B, C),double(C, D),min(D, E),div(E, R), X is 1, V is R." [("X", "1"); ("A", "(1 + 1)"); ("B", "((1 + 1) + 1)"); ("C", "(((1 + 1) + 1) * 2)"); ("D", "((((1 + 1) + 1) * 2) * 2)"); ("E", "(((((1 + 1) + 1) * 2) * 2) - 1)"); ("R", "((((((1 + 1) + 1) * 2) * 2) - 1) // 2)"); ("V", "5")]).
  expect (label_at "add(X, X + 1).min(X, X - 1).double(X, X * 2).div(X, X // 2)." "add(X, A),add(A, B),double(B, C),double(C, D),min(D, E),div(E, R), X is 1, V is R." [] "add(X, A)").
  expect (label_at "add(X, X + 1).min(X, X - 1).double(X, X * 2).div(X, X // 2)." "add(X, A),add(A, B),double(B, C),double(C, D),min(D, E),div(E, R), X is 1, V is R." [0] "add((X + 1), B)").
  expect (label_at "add(X, X + 1).min(X, X - 1).double(X, X * 2).div(X, X // 2)." "add(X, A),add(A, B),double(B, C),double(C, D),min(D, E),div(E, R), X is 1, V is R." [0; 0] "double(((X + 1) + 1), C)").
  expect (binds "add(X, X + 1).min(X, X - 1).double(X, X * 2).div(X, X // 2)." "X is 3,double(X, R),add(R, R2),div(R2, R3),Y is R3" [("X", "3"); ("R", "(3 * 2)"); ("R2", "((3 * 2) + 1)"); ("R3", "(((3 * 2) + 1) // 2)"); ("Y", "3")]).
  exact I.
Qed.

(** p1_test.cpp *)
Example test_p1_test : True.
Proof.
  expect (tree_made 1 src_p1_pl "schwester(X, Y).").
  exact I.
Qed.

(** p3-0_test.cpp *)
Example test_p3_0_test : True.
Proof.
  expect (gives 25 src_p3_0_pl "roots(Z1, Z2).").
  exact I.
Qed.

(** p3-1_test.cpp *)
Example test_p3_1_test : True.
Proof.
  expect (has_answer src_p5_0_pl "lvonM([]).").
  expect (has_answer src_p5_0_pl "lvonM([a]).").
  expect (answers_after_first 12 src_p5_0_pl "lvonM(Z)." ["[]"; "[nix]"; "[b]"; "[a]"; "[nix,b]"; "[nix,a]"; "[b,b]"; "[b,nix,b]"; "[a,a]"; "[a,nix,a]"; "[nix,b,b]"; "[nix,b,nix,b]"; "[nix,a,a]"; "[nix,a,nix,a]"; "[b,b,b]"; "[b,a,b]"; "[b,nix,b,b]"; "[b,nix,a,b]"; "[a,b,a]"; "[a,a,a]"; "[a,nix,b,a]"; "[a,nix,a,a]"; "[nix,b,b,b]"; "[nix,b,a,b]"; "[nix,b,nix,b,b]"; "[nix,b,nix,a,b]"; "[nix,a,b,a]"; "[nix,a,a,a]"; "[nix,a,nix,b,a]"; "[nix,a,nix,a,a]"; "[b,b,b,b]"; "[b,b,nix,b,b]"; "[b,a,a,b]"; "[b,a,nix,a,b]"; "[b,nix,b,b,b]"; "[b,nix,b,nix,b,b]"; "[b,nix,a,a,b]"; "[b,nix,a,nix,a,b]"; "[a,b,b,a]"; "[a,b,nix,b,a]"; "[a,a,a,a]"; "[a,a,nix,a,a]"; "[a,nix,b,b,a]"; "[a,nix,b,nix,b,a]"; "[a,nix,a,a,a]"; "[a,nix,a,nix,a,a]"; "[nix,b,b,b,b]"; "[nix,b,b,nix,b,b]"; "[nix,b,a,a,b]"; "[nix,b,a,nix,a,b]"; "[nix,b,nix,b,b,b]"; "[nix,b,nix,b,nix,b,b]"; "[nix,b,nix,a,a,b]"; "[nix,b,nix,a,nix,a,b]"; "[nix,a,b,b,a]"; "[nix,a,b,nix,b,a]"; "[nix,a,a,a,a]"; "[nix,a,a,nix,a,a]"; "[nix,a,nix,b,b,a]"; "[nix,a,nix,b,nix,b,a]"; "[nix,a,nix,a,a,a]"; "[nix,a,nix,a,nix,a,a]"; "[b,b,b,b,b]"; "[b,b,a,b,b]"; "[b,b,nix,b,b,b]"; "[b,b,nix,a,b,b]"; "[b,a,b,a,b]"; "[b,a,a,a,b]"; "[b,a,nix,b,a,b]"; "[b,a,nix,a,a,b]"; "[b,nix,b,b,b,b]"; "[b,nix,b,a,b,b]"; "[b,nix,b,nix,b,b,b]"; "[b,nix,b,nix,a,b,b]"; "[b,nix,a,b,a,b]"; "[b,nix,a,a,a,b]"; "[b,nix,a,nix,b,a,b]"; "[b,nix,a,nix,a,a,b]"; "[a,b,b,b,a]"; "[a,b,a,b,a]"; "[a,b,nix,b,b,a]"; "[a,b,nix,a,b,a]"; "[a,a,b,a,a]"; "[a,a,a,a,a]"; "[a,a,nix,b,a,a]"; "[a,a,nix,a,a,a]"; "[a,nix,b,b,b,a]"; "[a,nix,b,a,b,a]"; "[a,nix,b,nix,b,b,a]"; "[a,nix,b,nix,a,b,a]"; "[a,nix,a,b,a,a]"; "[a,nix,a,a,a,a]"; "[a,nix,a,nix,b,a,a]"; "[a,nix,a,nix,a,a,a]"; "[nix,b,b,b,b,b]"; "[nix,b,b,a,b,b]"; "[nix,b,b,nix,b,b,b]"; "[nix,b,b,nix,a,b,b]"; "[nix,b,a,b,a,b]"; "[nix,b,a,a,a,b]"; "[nix,b,a,nix,b,a,b]"; "[nix,b,a,nix,a,a,b]"; "[nix,b,nix,b,b,b,b]"; "[nix,b,nix,b,a,b,b]"; "[nix,b,nix,b,nix,b,b,b]"; "[nix,b,nix,b,nix,a,b,b]"; "[nix,b,nix,a,b,a,b]"; "[nix,b,nix,a,a,a,b]"; "[nix,b,nix,a,nix,b,a,b]"; "[nix,b,nix,a,nix,a,a,b]"; "[nix,a,b,b,b,a]"; "[nix,a,b,a,b,a]"; "[nix,a,b,nix,b,b,a]"; "[nix,a,b,nix,a,b,a]"; "[nix,a,a,b,a,a]"; "[nix,a,a,a,a,a]"; "[nix,a,a,nix,b,a,a]"; "[nix,a,a,nix,a,a,a]"; "[nix,a,nix,b,b,b,a]"; "[nix,a,nix,b,a,b,a]"; "[nix,a,nix,b,nix,b,b,a]"; "[nix,a,nix,b,nix,a,b,a]"; "[nix,a,nix,a,b,a,a]"; "[nix,a,nix,a,a,a,a]"; "[nix,a,nix,a,nix,b,a,a]"; "[nix,a,nix,a,nix,a,a,a]"; "[b,b,b,b,b,b]"; "[b,b,b,nix,b,b,b]"; "[b,b,a,a,b,b]"; "[b,b,a,nix,a,b,b]"; "[b,b,nix,b,b,b,b]"; "[b,b,nix,b,nix,b,b,b]"; "[b,b,nix,a,a,b,b]"; "[b,b,nix,a,nix,a,b,b]"; "[b,a,b,b,a,b]"; "[b,a,b,nix,b,a,b]"; "[b,a,a,a,a,b]"; "[b,a,a,nix,a,a,b]"; "[b,a,nix,b,b,a,b]"; "[b,a,nix,b,nix,b,a,b]"; "[b,a,nix,a,a,a,b]"; "[b,a,nix,a,nix,a,a,b]"; "[b,nix,b,b,b,b,b]"; "[b,nix,b,b,nix,b,b,b]"; "[b,nix,b,a,a,b,b]"; "[b,nix,b,a,nix,a,b,b]"; "[b,nix,b,nix,b,b,b,b]"; "[b,nix,b,nix,b,nix,b,b,b]"; "[b,nix,b,nix,a,a,b,b]"; "[b,nix,b,nix,a,nix,a,b,b]"; "[b,nix,a,b,b,a,b]"; "[b,nix,a,b,nix,b,a,b]"; "[b,nix,a,a,a,a,b]"; "[b,nix,a,a,nix,a,a,b]"; "[b,nix,a,nix,b,b,a,b]"; "[b,nix,a,nix,b,nix,b,a,b]"; "[b,nix,a,nix,a,a,a,b]"; "[b,nix,a,nix,a,nix,a,a,b]"; "[a,b,b,b,b,a]"; "[a,b,b,nix,b,b,a]"; "[a,b,a,a,b,a]"; "[a,b,a,nix,a,b,a]"; "[a,b,nix,b,b,b,a]"; "[a,b,nix,b,nix,b,b,a]"; "[a,b,nix,a,a,b,a]"; "[a,b,nix,a,nix,a,b,a]"; "[a,a,b,b,a,a]"; "[a,a,b,nix,b,a,a]"; "[a,a,a,a,a,a]"; "[a,a,a,nix,a,a,a]"; "[a,a,nix,b,b,a,a]"; "[a,a,nix,b,nix,b,a,a]"; "[a,a,nix,a,a,a,a]"; "[a,a,nix,a,nix,a,a,a]"; "[a,nix,b,b,b,b,a]"; "[a,nix,b,b,nix,b,b,a]"; "[a,nix,b,a,a,b,a]"; "[a,nix,b,a,nix,a,b,a]"; "[a,nix,b,nix,b,b,b,a]"; "[a,nix,b,nix,b,nix,b,b,a]"; "[a,nix,b,nix,a,a,b,a]"; "[a,nix,b,nix,a,nix,a,b,a]"; "[a,nix,a,b,b,a,a]"; "[a,nix,a,b,nix,b,a,a]"; "[a,nix,a,a,a,a,a]"; "[a,nix,a,a,nix,a,a,a]"; "[a,nix,a,nix,b,b,a,a]"; "[a,nix,a,nix,b,nix,b,a,a]"; "[a,nix,a,nix,a,a,a,a]"; "[a,nix,a,nix,a,nix,a,a,a]"; "[nix,b,b,b,b,b,b]"; "[nix,b,b,b,nix,b,b,b]"; "[nix,b,b,a,a,b,b]"; "[nix,b,b,a,nix,a,b,b]"; "[nix,b,b,nix,b,b,b,b]"; "[nix,b,b,nix,b,nix,b,b,b]"; "[nix,b,b,nix,a,a,b,b]"; "[nix,b,b,nix,a,nix,a,b,b]"; "[nix,b,a,b,b,a,b]"; "[nix,b,a,b,nix,b,a,b]"; "[nix,b,a,a,a,a,b]"; "[nix,b,a,a,nix,a,a,b]"; "[nix,b,a,nix,b,b,a,b]"; "[nix,b,a,nix,b,nix,b,a,b]"; "[nix,b,a,nix,a,a,a,b]"; "[nix,b,a,nix,a,nix,a,a,b]"; "[nix,b,nix,b,b,b,b,b]"; "[nix,b,nix,b,b,nix,b,b,b]"; "[nix,b,nix,b,a,a,b,b]"; "[nix,b,nix,b,a,nix,a,b,b]"; "[nix,b,nix,b,nix,b,b,b,b]"; "[nix,b,nix,b,nix,b,nix,b,b,b]"; "[nix,b,nix,b,nix,a,a,b,b]"; "[nix,b,nix,b,nix,a,nix,a,b,b]"; "[nix,b,nix,a,b,b,a,b]"; "[nix,b,nix,a,b,nix,b,a,b]"; "[nix,b,nix,a,a,a,a,b]"; "[nix,b,nix,a,a,nix,a,a,b]"; "[nix,b,nix,a,nix,b,b,a,b]"; "[nix,b,nix,a,nix,b,nix,b,a,b]"; "[nix,b,nix,a,nix,a,a,a,b]"; "[nix,b,nix,a,nix,a,nix,a,a,b]"; "[nix,a,b,b,b,b,a]"; "[nix,a,b,b,nix,b,b,a]"; "[nix,a,b,a,a,b,a]"; "[nix,a,b,a,nix,a,b,a]"; "[nix,a,b,nix,b,b,b,a]"; "[nix,a,b,nix,b,nix,b,b,a]"; "[nix,a,b,nix,a,a,b,a]"; "[nix,a,b,nix,a,nix,a,b,a]"; "[nix,a,a,b,b,a,a]"; "[nix,a,a,b,nix,b,a,a]"; "[nix,a,a,a,a,a,a]"; "[nix,a,a,a,nix,a,a,a]"; "[nix,a,a,nix,b,b,a,a]"; "[nix,a,a,nix,b,nix,b,a,a]"; "[nix,a,a,nix,a,a,a,a]"; "[nix,a,a,nix,a,nix,a,a,a]"; "[nix,a,nix,b,b,b,b,a]"; "[nix,a,nix,b,b,nix,b,b,a]"; "[nix,a,nix,b,a,a,b,a]"; "[nix,a,nix,b,a,nix,a,b,a]"; "[nix,a,nix,b,nix,b,b,b,a]"; "[nix,a,nix,b,nix,b,nix,b,b,a]"; "[nix,a,nix,b,nix,a,a,b,a]"; "[nix,a,nix,b,nix,a,nix,a,b,a]"; "[nix,a,nix,a,b,b,a,a]"; "[nix,a,nix,a,b,nix,b,a,a]"; "[nix,a,nix,a,a,a,a,a]"; "[nix,a,nix,a,a,nix,a,a,a]"; "[nix,a,nix,a,nix,b,b,a,a]"; "[nix,a,nix,a,nix,b,nix,b,a,a]"; "[nix,a,nix,a,nix,a,a,a,a]"; "[nix,a,nix,a,nix,a,nix,a,a,a]"; "[b,b,b,b,b,b,b]"; "[b,b,b,a,b,b,b]"; "[b,b,b,nix,b,b,b,b]"; "[b,b,b,nix,a,b,b,b]"; "[b,b,a,b,a,b,b]"; "[b,b,a,a,a,b,b]"; "[b,b,a,nix,b,a,b,b]"; "[b,b,a,nix,a,a,b,b]"; "[b,b,nix,b,b,b,b,b]"; "[b,b,nix,b,a,b,b,b]"]). (* 12 of the 25 answers *)
  exact I.
Qed.

(** p5-0_test.cpp *)
Example test_p5_0_test : True.
Proof.
  expect (answers_after_first 12 src_p5_0_pl "lvonM(Z)." ["[]"; "[nix]"; "[b]"; "[a]"; "[nix,b]"; "[nix,a]"; "[b,b]"; "[b,nix,b]"; "[a,a]"; "[a,nix,a]"; "[nix,b,b]"; "[nix,b,nix,b]"; "[nix,a,a]"; "[nix,a,nix,a]"; "[b,b,b]"; "[b,a,b]"; "[b,nix,b,b]"; "[b,nix,a,b]"; "[a,b,a]"; "[a,a,a]"; "[a,nix,b,a]"; "[a,nix,a,a]"; "[nix,b,b,b]"; "[nix,b,a,b]"; "[nix,b,nix,b,b]"; "[nix,b,nix,a,b]"; "[nix,a,b,a]"; "[nix,a,a,a]"; "[nix,a,nix,b,a]"; "[nix,a,nix,a,a]"; "[b,b,b,b]"; "[b,b,nix,b,b]"; "[b,a,a,b]"; "[b,a,nix,a,b]"; "[b,nix,b,b,b]"; "[b,nix,b,nix,b,b]"; "[b,nix,a,a,b]"; "[b,nix,a,nix,a,b]"; "[a,b,b,a]"; "[a,b,nix,b,a]"; "[a,a,a,a]"; "[a,a,nix,a,a]"; "[a,nix,b,b,a]"; "[a,nix,b,nix,b,a]"; "[a,nix,a,a,a]"; "[a,nix,a,nix,a,a]"; "[nix,b,b,b,b]"; "[nix,b,b,nix,b,b]"; "[nix,b,a,a,b]"; "[nix,b,a,nix,a,b]"; "[nix,b,nix,b,b,b]"; "[nix,b,nix,b,nix,b,b]"; "[nix,b,nix,a,a,b]"; "[nix,b,nix,a,nix,a,b]"; "[nix,a,b,b,a]"; "[nix,a,b,nix,b,a]"; "[nix,a,a,a,a]"; "[nix,a,a,nix,a,a]"; "[nix,a,nix,b,b,a]"; "[nix,a,nix,b,nix,b,a]"; "[nix,a,nix,a,a,a]"; "[nix,a,nix,a,nix,a,a]"; "[b,b,b,b,b]"; "[b,b,a,b,b]"; "[b,b,nix,b,b,b]"; "[b,b,nix,a,b,b]"; "[b,a,b,a,b]"; "[b,a,a,a,b]"; "[b,a,nix,b,a,b]"; "[b,a,nix,a,a,b]"; "[b,nix,b,b,b,b]"; "[b,nix,b,a,b,b]"; "[b,nix,b,nix,b,b,b]"; "[b,nix,b,nix,a,b,b]"; "[b,nix,a,b,a,b]"; "[b,nix,a,a,a,b]"; "[b,nix,a,nix,b,a,b]"; "[b,nix,a,nix,a,a,b]"; "[a,b,b,b,a]"; "[a,b,a,b,a]"; "[a,b,nix,b,b,a]"; "[a,b,nix,a,b,a]"; "[a,a,b,a,a]"; "[a,a,a,a,a]"; "[a,a,nix,b,a,a]"; "[a,a,nix,a,a,a]"; "[a,nix,b,b,b,a]"; "[a,nix,b,a,b,a]"; "[a,nix,b,nix,b,b,a]"; "[a,nix,b,nix,a,b,a]"; "[a,nix,a,b,a,a]"; "[a,nix,a,a,a,a]"; "[a,nix,a,nix,b,a,a]"; "[a,nix,a,nix,a,a,a]"; "[nix,b,b,b,b,b]"; "[nix,b,b,a,b,b]"; "[nix,b,b,nix,b,b,b]"; "[nix,b,b,nix,a,b,b]"; "[nix,b,a,b,a,b]"; "[nix,b,a,a,a,b]"; "[nix,b,a,nix,b,a,b]"; "[nix,b,a,nix,a,a,b]"; "[nix,b,nix,b,b,b,b]"; "[nix,b,nix,b,a,b,b]"; "[nix,b,nix,b,nix,b,b,b]"; "[nix,b,nix,b,nix,a,b,b]"; "[nix,b,nix,a,b,a,b]"; "[nix,b,nix,a,a,a,b]"; "[nix,b,nix,a,nix,b,a,b]"; "[nix,b,nix,a,nix,a,a,b]"; "[nix,a,b,b,b,a]"; "[nix,a,b,a,b,a]"; "[nix,a,b,nix,b,b,a]"; "[nix,a,b,nix,a,b,a]"; "[nix,a,a,b,a,a]"; "[nix,a,a,a,a,a]"; "[nix,a,a,nix,b,a,a]"; "[nix,a,a,nix,a,a,a]"; "[nix,a,nix,b,b,b,a]"; "[nix,a,nix,b,a,b,a]"; "[nix,a,nix,b,nix,b,b,a]"; "[nix,a,nix,b,nix,a,b,a]"; "[nix,a,nix,a,b,a,a]"; "[nix,a,nix,a,a,a,a]"; "[nix,a,nix,a,nix,b,a,a]"; "[nix,a,nix,a,nix,a,a,a]"; "[b,b,b,b,b,b]"; "[b,b,b,nix,b,b,b]"; "[b,b,a,a,b,b]"; "[b,b,a,nix,a,b,b]"; "[b,b,nix,b,b,b,b]"; "[b,b,nix,b,nix,b,b,b]"; "[b,b,nix,a,a,b,b]"; "[b,b,nix,a,nix,a,b,b]"; "[b,a,b,b,a,b]"; "[b,a,b,nix,b,a,b]"; "[b,a,a,a,a,b]"; "[b,a,a,nix,a,a,b]"; "[b,a,nix,b,b,a,b]"; "[b,a,nix,b,nix,b,a,b]"; "[b,a,nix,a,a,a,b]"; "[b,a,nix,a,nix,a,a,b]"; "[b,nix,b,b,b,b,b]"; "[b,nix,b,b,nix,b,b,b]"; "[b,nix,b,a,a,b,b]"; "[b,nix,b,a,nix,a,b,b]"; "[b,nix,b,nix,b,b,b,b]"; "[b,nix,b,nix,b,nix,b,b,b]"; "[b,nix,b,nix,a,a,b,b]"; "[b,nix,b,nix,a,nix,a,b,b]"; "[b,nix,a,b,b,a,b]"; "[b,nix,a,b,nix,b,a,b]"; "[b,nix,a,a,a,a,b]"; "[b,nix,a,a,nix,a,a,b]"; "[b,nix,a,nix,b,b,a,b]"; "[b,nix,a,nix,b,nix,b,a,b]"; "[b,nix,a,nix,a,a,a,b]"; "[b,nix,a,nix,a,nix,a,a,b]"; "[a,b,b,b,b,a]"; "[a,b,b,nix,b,b,a]"; "[a,b,a,a,b,a]"; "[a,b,a,nix,a,b,a]"; "[a,b,nix,b,b,b,a]"; "[a,b,nix,b,nix,b,b,a]"; "[a,b,nix,a,a,b,a]"; "[a,b,nix,a,nix,a,b,a]"; "[a,a,b,b,a,a]"; "[a,a,b,nix,b,a,a]"; "[a,a,a,a,a,a]"; "[a,a,a,nix,a,a,a]"; "[a,a,nix,b,b,a,a]"; "[a,a,nix,b,nix,b,a,a]"; "[a,a,nix,a,a,a,a]"; "[a,a,nix,a,nix,a,a,a]"; "[a,nix,b,b,b,b,a]"; "[a,nix,b,b,nix,b,b,a]"; "[a,nix,b,a,a,b,a]"; "[a,nix,b,a,nix,a,b,a]"; "[a,nix,b,nix,b,b,b,a]"; "[a,nix,b,nix,b,nix,b,b,a]"; "[a,nix,b,nix,a,a,b,a]"; "[a,nix,b,nix,a,nix,a,b,a]"; "[a,nix,a,b,b,a,a]"; "[a,nix,a,b,nix,b,a,a]"; "[a,nix,a,a,a,a,a]"; "[a,nix,a,a,nix,a,a,a]"; "[a,nix,a,nix,b,b,a,a]"; "[a,nix,a,nix,b,nix,b,a,a]"; "[a,nix,a,nix,a,a,a,a]"; "[a,nix,a,nix,a,nix,a,a,a]"; "[nix,b,b,b,b,b,b]"; "[nix,b,b,b,nix,b,b,b]"; "[nix,b,b,a,a,b,b]"; "[nix,b,b,a,nix,a,b,b]"; "[nix,b,b,nix,b,b,b,b]"; "[nix,b,b,nix,b,nix,b,b,b]"; "[nix,b,b,nix,a,a,b,b]"; "[nix,b,b,nix,a,nix,a,b,b]"; "[nix,b,a,b,b,a,b]"; "[nix,b,a,b,nix,b,a,b]"; "[nix,b,a,a,a,a,b]"; "[nix,b,a,a,nix,a,a,b]"; "[nix,b,a,nix,b,b,a,b]"; "[nix,b,a,nix,b,nix,b,a,b]"; "[nix,b,a,nix,a,a,a,b]"; "[nix,b,a,nix,a,nix,a,a,b]"; "[nix,b,nix,b,b,b,b,b]"; "[nix,b,nix,b,b,nix,b,b,b]"; "[nix,b,nix,b,a,a,b,b]"; "[nix,b,nix,b,a,nix,a,b,b]"; "[nix,b,nix,b,nix,b,b,b,b]"; "[nix,b,nix,b,nix,b,nix,b,b,b]"; "[nix,b,nix,b,nix,a,a,b,b]"; "[nix,b,nix,b,nix,a,nix,a,b,b]"; "[nix,b,nix,a,b,b,a,b]"; "[nix,b,nix,a,b,nix,b,a,b]"; "[nix,b,nix,a,a,a,a,b]"; "[nix,b,nix,a,a,nix,a,a,b]"; "[nix,b,nix,a,nix,b,b,a,b]"; "[nix,b,nix,a,nix,b,nix,b,a,b]"; "[nix,b,nix,a,nix,a,a,a,b]"; "[nix,b,nix,a,nix,a,nix,a,a,b]"; "[nix,a,b,b,b,b,a]"; "[nix,a,b,b,nix,b,b,a]"; "[nix,a,b,a,a,b,a]"; "[nix,a,b,a,nix,a,b,a]"; "[nix,a,b,nix,b,b,b,a]"; "[nix,a,b,nix,b,nix,b,b,a]"; "[nix,a,b,nix,a,a,b,a]"; "[nix,a,b,nix,a,nix,a,b,a]"; "[nix,a,a,b,b,a,a]"; "[nix,a,a,b,nix,b,a,a]"; "[nix,a,a,a,a,a,a]"; "[nix,a,a,a,nix,a,a,a]"; "[nix,a,a,nix,b,b,a,a]"; "[nix,a,a,nix,b,nix,b,a,a]"; "[nix,a,a,nix,a,a,a,a]"; "[nix,a,a,nix,a,nix,a,a,a]"; "[nix,a,nix,b,b,b,b,a]"; "[nix,a,nix,b,b,nix,b,b,a]"; "[nix,a,nix,b,a,a,b,a]"; "[nix,a,nix,b,a,nix,a,b,a]"; "[nix,a,nix,b,nix,b,b,b,a]"; "[nix,a,nix,b,nix,b,nix,b,b,a]"; "[nix,a,nix,b,nix,a,a,b,a]"; "[nix,a,nix,b,nix,a,nix,a,b,a]"; "[nix,a,nix,a,b,b,a,a]"; "[nix,a,nix,a,b,nix,b,a,a]"; "[nix,a,nix,a,a,a,a,a]"; "[nix,a,nix,a,a,nix,a,a,a]"; "[nix,a,nix,a,nix,b,b,a,a]"; "[nix,a,nix,a,nix,b,nix,b,a,a]"; "[nix,a,nix,a,nix,a,a,a,a]"; "[nix,a,nix,a,nix,a,nix,a,a,a]"; "[b,b,b,b,b,b,b]"; "[b,b,b,a,b,b,b]"; "[b,b,b,nix,b,b,b,b]"; "[b,b,b,nix,a,b,b,b]"; "[b,b,a,b,a,b,b]"; "[b,b,a,a,a,b,b]"; "[b,b,a,nix,b,a,b,b]"; "[b,b,a,nix,a,a,b,b]"; "[b,b,nix,b,b,b,b,b]"; "[b,b,nix,b,a,b,b,b]"]). (* 12 of the 25 answers *)
  exact I.
Qed.

(** p4-0_test.cpp *)
Example test_p4_0_test : True.
Proof.
  expect (has_answer src_p4_0_pl "lvonN([b,a]).").
  expect (has_answer src_p4_0_pl "lvonN([b,b,b,a]).").
  expect (gives 25 src_p4_0_pl "lvonN(Z).").
  exact I.
Qed.

(** p4-1_test.cpp *)
Example test_p4_1_test : True.
Proof.
  expect (has_answer src_p4_1_pl "lvongbb([b,a]).").
  expect (has_answer src_p4_1_pl "lvongbb([b,b,b,a]).").
  exact I.
Qed.

(** p5-2_test.cpp *)
Example test_p5_2_test : True.
Proof.
  expect (has_answer src_p5_2_pl "lVonM([a,b]).").
  expect (no_answer src_p5_2_pl "lVonM([b,a,b,a]).").
  expect (answers_among 8 src_p5_2_pl "lVonM(Z)." ["[a,b]"; "[a,b,nix]"; "[a,a,b,b]"; "[a,a,b,b,nix]"; "[a,a,a,b,b,b]"; "[a,a,a,b,b,b,nix]"; "[a,a,a,a,b,b,b,b]"; "[a,a,a,a,b,b,b,b,nix]"; "[a,a,a,a,a,b,b,b,b,b]"; "[a,a,a,a,a,b,b,b,b,b,nix]"; "[a,a,a,a,a,a,b,b,b,b,b,b]"; "[a,a,a,a,a,a,b,b,b,b,b,b,nix]"; "[a,a,a,a,a,a,a,b,b,b,b,b,b,b]"; "[a,a,a,a,a,a,a,b,b,b,b,b,b,b,nix]"; "[a,a,a,a,a,a,a,a,b,b,b,b,b,b,b,b]"; "[a,a,a,a,a,a,a,a,b,b,b,b,b,b,b,b,nix]"; "[a,a,a,a,a,a,a,a,a,b,b,b,b,b,b,b,b,b]"; "[a,a,a,a,a,a,a,a,a,b,b,b,b,b,b,b,b,b,nix]"; "[a,a,a,a,a,a,a,a,a,a,b,b,b,b,b,b,b,b,b,b]"; "[a,a,a,a,a,a,a,a,a,a,b,b,b,b,b,b,b,b,b,b,nix]"; "[a,a,a,a,a,a,a,a,a,a,a,b,b,b,b,b,b,b,b,b,b,b]"; "[a,a,a,a,a,a,a,a,a,a,a,b,b,b,b,b,b,b,b,b,b,b,nix]"; "[a,a,a,a,a,a,a,a,a,a,a,a,b,b,b,b,b,b,b,b,b,b,b,b]"; "[a,a,a,a,a,a,a,a,a,a,a,a,b,b,b,b,b,b,b,b,b,b,b,b,nix]"; "[a,a,a,a,a,a,a,a,a,a,a,a,a,b,b,b,b,b,b,b,b,b,b,b,b,b,nix]"] 17). (* 8 of the 25 answers *)
  exact I.
Qed.

(** v1_test.cpp *)
Example test_v1_test : True.
Proof.
  expect (first_binding program_11 "natSymb(s(A))." "o").
  expect (each_twice 5 program_11 "test(Z)." ["a"; "b"]).
  exact I.
Qed.

(** weg_laenge_test.cpp *)
Example test_weg_laenge_test : True.
Proof.
  expect (first_binding src_wegLange1_pl "wegLaenge(a,f,Z)." "s(s(s(o)))").
  expect (first_binding src_wegLange1_pl "wegLaenge(a,d,Z)." "s(s(o))").
  exact I.
Qed.

(** visual.cpp *)
Example test_visual : True.
Proof.
  expect (binds "g(X, X)." "g(Z1, Z2)." [("Z1", "Z2"); ("Z2", "Z2")]).
  expect (tree_made 1 "g(X, X)." "g(Z1, Z2).").
  exact I.
Qed.

(** parser/program.cpp *)
Example test_parser_program : True.
Proof.
  expect (valid "f(a) :- f(b).").
  expect (wrong_program_at "f(a) :- f(b) X.
f(a) :- f(b), f(c)" 1 14).
  expect (wrong_program_at "aa)." 1 3).
  expect (wrong_program_at "JOKES_AND_STUFF." 1 1).
  exact I.
Qed.

(** parser/query.cpp *)
Example test_parser_query : True.
Proof.
  expect (wrong_query_at "DFS, LKJ, f(b), d." 1 1).
  expect (valid_query "f(a), f(b), d.").
  expect (wrong_query_at "aa)." 1 3).
  exact I.
Qed.

(** unification_tree/tree_int_test.cpp *)
Example test_unification_tree_tree_int_test : True.
Proof.
  expect (tree_made 1 program_10 "l([Y, b, [1, [X]]], f(b([a, [a] | [Z]]))).").
  exact I.
Qed.

(** unification_tree/tree_test.cpp *)
Example test_unification_tree_tree_test : True.
Proof.
  expect (label_at src_arithmetic_pl "mult(s(o),s(s(s(o))),Z)." [] "mult(s(o), s(s(s(o))), Z)").
  expect (branch_is src_arithmetic_pl "mult(s(o),s(s(s(o))),Z)." [] 0 Failed).
  expect (branch_is src_arithmetic_pl "mult(s(o),s(s(s(o))),Z)." [] 1 Continues).
  expect (binds_at src_arithmetic_pl "mult(s(o),s(s(s(o))),Z)." [] 1 [("B", "s(s(s(o)))"); ("C", "Z"); ("A", "o")]).
  expect (label_at src_arithmetic_pl "mult(s(o),s(s(s(o))),Z)." [1] "mult(o, s(s(s(o))), D)").
  expect (branch_is src_arithmetic_pl "mult(s(o),s(s(s(o))),Z)." [1] 1 Failed).
  expect (branch_is src_arithmetic_pl "mult(s(o),s(s(s(o))),Z)." [1] 0 Continues).
  expect (binds_at src_arithmetic_pl "mult(s(o),s(s(s(o))),Z)." [1] 0 [("D", "o"); ("X", "s(s(s(o)))")]).
  expect (branch_is src_arithmetic_pl "mult(s(o),s(s(s(o))),Z)." [1; 0] 1 ToBeContinued).
  expect (branch_is src_arithmetic_pl "mult(s(o),s(s(s(o))),Z)." [1; 0] 0 Succeeded).
  expect (binds_at src_arithmetic_pl "mult(s(o),s(s(s(o))),Z)." [1; 0] 0 [("A", "s(s(s(o)))"); ("Z", "s(s(s(o)))")]).
  expect (final_at src_arithmetic_pl "mult(s(o),s(s(s(o))),Z)." [1; 0] 0 [("Z", "s(s(s(o)))")]).
  expect (first_at "p(X) :- addVar(X), unifyVar(X).addVar(s(Y)).unifyVar(s(s(o)))." "p(Y)." [] 0 [("X", "Y")]).
  expect (label_at "p(X) :- addVar(X), unifyVar(X).addVar(s(Y)).unifyVar(s(s(o)))." "p(Y)." [0] "addVar(Y)").
  expect (binds_at "p(X) :- addVar(X), unifyVar(X).addVar(s(Y)).unifyVar(s(s(o)))." "p(Y)." [0] 0 [("Y", "s(Y)")]).
  expect (label_at "p(X) :- addVar(X), unifyVar(X).addVar(s(Y)).unifyVar(s(s(o)))." "p(Y)." [0; 0] "unifyVar(s(Y))").
  expect (first_at "p(X) :- addVar(X), unifyVar(X).addVar(s(Y)).unifyVar(s(s(o)))." "p(Y)." [0; 0] 0 [("Y", "s(o)")]).
  expect (branch_is "p(X) :- p(X).p(a)." "p(Z)." [] 0 Continues).
  expect (first_at "p(X) :- p(X).p(a)." "p(Z)." [] 0 [("X", "Z")]).
  expect (waits_at "p(X) :- p(X).p(a)." "p(Z)." [0]).
  expect (branch_is "p(X) :- p(X).p(a)." "p(Z)." [] 1 Succeeded).
  expect (final_at "p(X) :- p(X).p(a)." "p(Z)." [] 1 [("Z", "a")]).
  expect (first_at "r([a, b, c]) :- g(X), h(Y), c(Z), f(Single).g([[a,b], [a,Y] | X]).h([]).c([X, Y]).f([a])." "r(Z)." [] 0 [("Z", "[a, b, c]")]).
  expect (first_at "r([a, b, c]) :- g(X), h(Y), c(Z), f(Single).g([[a,b], [a,Y] | X]).h([]).c([X, Y]).f([a])." "r(Z)." [0] 0 [("X", "[[a, b], [a, Y], X]")]).
  expect (first_at "r([a, b, c]) :- g(X), h(Y), c(Z), f(Single).g([[a,b], [a,Y] | X]).h([]).c([X, Y]).f([a])." "r(Z)." [0; 0] 0 [("Y", "[]")]).
  expect (first_at "r([a, b, c]) :- g(X), h(Y), c(Z), f(Single).g([[a,b], [a,Y] | X]).h([]).c([X, Y]).f([a])." "r(Z)." [0; 0; 0] 0 [("Z", "[X, Y]")]).
  expect (first_at "r([a, b, c]) :- g(X), h(Y), c(Z), f(Single).g([[a,b], [a,Y] | X]).h([]).c([X, Y]).f([a])." "r(Z)." [0; 0; 0; 0] 0 [("Single", "[a]")]).
  expect (tree_made 1 src_p5_2_pl "lVonM(Z).").
  expect (tree_made 2 src_p5_2_pl "lVonM(Z).").
  expect (tree_made 3 src_p5_2_pl "lVonM(Z).").
  expect (tree_made 4 src_p5_2_pl "lVonM(Z).").
  expect (tree_made 5 src_p5_2_pl "lVonM(Z).").
  expect (tree_made 1 src_p4_0_pl "lvonN(Z).").
  expect (tree_made 2 src_p4_0_pl "lvonN(Z).").
  expect (tree_made 3 src_p4_0_pl "lvonN(Z).").
  expect (tree_made 4 src_p4_0_pl "lvonN(Z).").
  expect (tree_made 1 src_arithmetic_pl "add(Z, s(o), s(s(o))).").
  expect (tree_made 1 "weiblich(e2).weiblich(k2).schwester(X,Y) :- weiblich(X), ges(X,Y)." "schwester(X, Y).").
  exact I.
Qed.

(** various/time_limit_test.cpp *)
Example test_various_time_limit_test : True.
Proof.
  expect (out_of_time src_p5_2_pl "lVonM([a,a,a,a,b,b,b,b]).").
  exact I.
Qed.
