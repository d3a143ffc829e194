(** The compiler: from parsed clauses to instructions. *)
From Verif Require Import Base Machine.
Open Scope string_scope.
Open Scope list_scope.

(** node.h 32-46 (type, name, children); STORED_OBJECT_FLAG is the constructor. The registers of a node are
    kept in the tables below, code_info is not modelled. [NInt] keeps the digits as parsed. *)
Inductive node :=
| NVar (s : string)
| NCon (s : string)
| NInt (s : string)
| NFun (s : string) (l : list node)
| NEv (s : string) (l : list node).

Definition kids (n : node) : list node :=
  match n with NFun _ l | NEv _ l => l | _ => [] end.
Definition node_name (n : node) : string :=
  match n with NVar s | NCon s | NInt s | NFun s _ | NEv s _ => s end.
Definition is_constant (n : node) : bool := match n with NCon _ => true | _ => false end.

(** node.h 161-172 *)
Definition to_fview (n : node) : fview := FV (node_name n) (List.length (kids n)).

Fixpoint nsize (n : node) : nat :=
  match n with
  | NFun _ l | NEv _ l => S (fold_right (fun m acc => nsize m + acc) 0 l)
  | _ => 1
  end.
Definition fsize (l : list node) : nat := fold_right (fun m acc => nsize m + acc) 0 l.

(** node_iteration.h 19-41: the queue. The fuel [fsize q] is always enough. *)
Fixpoint bfs_q (fuel : nat) (q : list node) : list node :=
  match fuel with
  | 0 => []
  | S f => match q with
           | [] => []
           | n :: q' => n :: bfs_q f (q' ++ kids n)
           end
  end.
Definition bfs (q : list node) : list node := bfs_q (fsize q) q.
(** bfs_order(n, true, ...) *)
Definition bfs_below (n : node) : list node := bfs (kids n).

(** --- assign_registers, compiler.cpp 27-109 --- *)

Fixpoint assoc {A} (s : string) (l : list (string * A)) : option A :=
  match l with
  | [] => None
  | (t, a) :: l' => if String.eqb s t then Some a else assoc s l'
  end.

(** compiler.cpp 68-102: x registers of the nodes in bfs order. [pos] is the position in that order; the first
    [nargs] nodes are the arguments. [m]: variable name -> x register of its first occurrence. *)
Fixpoint assign_xs (nargs pos : nat) (l : list node) (cnt : nat) (m : list (string * nat))
  : list nat * nat * list (string * nat) :=
  match l with
  | [] => ([], cnt, m)
  | n :: l' =>
      let '(x, cnt1, m1) :=
        match n with
        | NVar s => match assoc s m with
                    | Some r => (r, cnt, m)
                    | None => (cnt, S cnt, (s, cnt) :: m)
                    end
        | _ => if Nat.ltb pos nargs then (pos, cnt, m) else (cnt, S cnt, m)
        end in
      let '(xs, cnt2, m2) := assign_xs nargs (S pos) l' cnt1 m1 in
      (x :: xs, cnt2, m2)
  end.

(** A node of the flattened term with its registers and its children's X registers. *)
Record ent := { en_node : node; en_x : nat; en_arg : option nat; en_kids : list (node * nat) }.

(** Attach to each node in bfs order the (contiguous) block of its children; [rest] starts with the
    children of the first node of [l]. *)
Fixpoint mk_ents (nargs pos : nat) (l : list (node * nat)) (rest : list (node * nat)) : list ent :=
  match l with
  | [] => []
  | (n, x) :: l' =>
      let k := List.length (kids n) in
      {| en_node := n; en_x := x;
         en_arg := if Nat.ltb pos nargs then Some pos else None;
         en_kids := firstn k rest |}
      :: mk_ents nargs (S pos) l' (skipn k rest)
  end.

(** An atom with its registers. For a constant: a = x = 0 and the only flattened node is the atom itself
    (compiler.cpp 28-37, 119-122, 595-597). [aa_vx]: X register of every variable name. *)
Record aatom := { aa_top : node; aa_ents : list ent; aa_vx : list (string * nat) }.

Definition const_atom (n : node) : aatom :=
  {| aa_top := n;
     aa_ents := [{| en_node := n; en_x := 0; en_arg := Some 0; en_kids := [] |}];
     aa_vx := [] |}.

(** The part of assign_registers for one term, starting from the variable map [m] (compiler.cpp 46-102). *)
Definition assign_term (n : node) (m : list (string * nat)) : aatom * nat * list (string * nat) :=
  let l := bfs_below n in
  let nargs := List.length (kids n) in
  let '(xs, cnt, m') := assign_xs nargs 0 l nargs m in
  let lx := combine l xs in
  ({| aa_top := n; aa_ents := mk_ents nargs 0 lx (skipn nargs lx); aa_vx := m' |}, cnt, m').

(** compiler.cpp 27-109 without first body atom *)
Definition assign_one (n : node) : aatom * nat :=
  if is_constant n then (const_atom n, 1)
  else let '(a, cnt, _) := assign_term n [] in (a, cnt).

(** compiler.cpp 27-109 with first body atom *)
Definition assign_two (h b : node) : aatom * aatom * nat :=
  if is_constant b then
    let '(ha, c) := assign_one h in (ha, const_atom b, 1 + c)
  else if is_constant h then
    let '(ba, c) := assign_one b in (const_atom h, ba, 1 + c)
  else
    let '(ha, c1, m1) := assign_term h [] in
    let '(ba, c2, _) := assign_term b m1 in
    (ha, ba, Nat.max c1 c2).

(** compiler.cpp 116-131 *)
Definition keep_flat (e : ent) : bool :=
  match en_node e with
  | NFun _ _ | NEv _ _ => true
  | _ => match en_arg e with Some _ => true | None => false end
  end.
Definition flatten_program (a : aatom) : list ent := filter keep_flat (aa_ents a).

(** compiler.cpp 588-601 *)
Definition flatten_query (a : aatom) : list ent :=
  let f := flatten_program a in
  let k := List.length (kids (aa_top a)) in
  if is_constant (aa_top a) then f
  else rev (skipn k f) ++ firstn k f.

(** --- assign_permanent_registers, compiler.cpp 620-688 --- *)

Definition vars_of (n : node) : list string :=
  flat_map (fun m => match m with NVar s => [s] | _ => [] end) (bfs_below n).

(** var_information: first occurrence and is_permanent, in insertion order *)
Definition vinfo := list (string * (nat * bool)).
Fixpoint vset (s : string) (i : nat * bool) (l : vinfo) : vinfo :=
  match l with
  | [] => [(s, i)]
  | (t, j) :: l' => if String.eqb s t then (t, i) :: l' else (t, j) :: vset s i l'
  end.

(** 630-650: set first_occurrence, keep is_permanent *)
Definition mark_first (k : nat) (vs : list string) (l : vinfo) : vinfo :=
  fold_left (fun l s => vset s (k, match assoc s l with Some (_, p) => p | None => false end) l) vs l.
(** 657-673 *)
Definition mark_later (k : nat) (vs : list string) (l : vinfo) : vinfo :=
  fold_left (fun l s => match assoc s l with
                        | Some (j, _) => vset s (j, negb (Nat.eqb j k)) l
                        | None => vset s (k, false) l
                        end) vs l.
Fixpoint mark_rest (k : nat) (ns : list node) (l : vinfo) : vinfo :=
  match ns with
  | [] => l
  | n :: ns' => if is_constant n then mark_rest k ns' l
                else mark_rest (S k) ns' (mark_later k (vars_of n) l)
  end.

(** The permanent variables in insertion order. *)
Definition perm_vars (atoms : list node) (program_term : bool) : list string :=
  let names (l : vinfo) := map fst (filter (fun e => snd (snd e)) l) in
  match atoms with
  | [] => []
  | [_] => []
  | n0 :: n1 :: ns =>
      if program_term then
        match ns with
        | [] => []
        | _ =>
            let l0 := if is_constant n0 then [] else mark_first 0 (vars_of n0) [] in
            if is_constant n1 then names (mark_rest 1 ns l0)
            else names (mark_rest 2 ns (mark_first 1 (vars_of n1) l0))
        end
      else
        let l0 := if is_constant n0 then [] else mark_first 0 (vars_of n0) [] in
        names (mark_rest 1 (n1 :: ns) l0)
  end.

Fixpoint pos_of (s : string) (l : list string) : option nat :=
  match l with
  | [] => None
  | t :: l' => if String.eqb s t then Some 0 else option_map S (pos_of s l')
  end.
(** 677-685: y registers in the iteration order of the hash map *)
Definition perm_order (cf : cfg) (atoms : list node) (program_term : bool) : list string :=
  c_ord cf (perm_vars atoms program_term).

(** --- code generation --- *)

(** compiler_error_type.h, and exceptions that are not a compiler::error *)
Inductive cerr :=
| CParser            (** PARSER_ERROR *)
| CNone              (** an error object whose exists() is false *)
| CNotInst           (** ARGUMENTS_NOT_SUFF_INSTANCIATED *)
| CRedef.            (** REDEFINITION_OF_BUILT_IN_PREDICATE *)
Inductive cres (A : Type) := COk (a : A) | CErr (e : cerr) | CEsc.  (** [CEsc]: std::out_of_range escapes *)
Arguments COk {A}. Arguments CErr {A}. Arguments CEsc {A}.

(** Compilation computations: the storage is modified in place, also when an exception is thrown. *)
Definition comp (A : Type) := storage -> cres A * storage.
Definition cret {A} (a : A) : comp A := fun s => (COk a, s).
Definition cbind {A B} (m : comp A) (f : A -> comp B) : comp B :=
  fun s => match m s with
           | (COk a, s') => f a s'
           | (CErr e, s') => (CErr e, s')
           | (CEsc, s') => (CEsc, s')
           end.
Notation "x <~ m ;; k" := (cbind m (fun x => k)) (at level 61, m at next level, right associativity).
Notation "' p <~ m ;; k" := (cbind m (fun x => let p := x in k))
  (at level 61, p pattern, m at next level, right associativity).
Definition cthrow {A} (e : cerr) : comp A := fun s => (CErr e, s).
Definition cesc {A} : comp A := fun s => (CEsc, s).
Definition cfidx (f : fview) : comp Z := fun s => let '(i, s') := functor_index_of f s in (COk i, s').
Definition cvar (nm : string) : comp Z := fun s => let '(i, s') := push_back_var nm s in (COk i, s').

(** std::stoi on the text of an integer (an optional minus and digits) *)
Fixpoint digits_val (s : string) (acc : Z) : option Z :=
  match s with
  | EmptyString => Some acc
  | String c s' =>
      let n := Z.of_nat (nat_of_ascii c) in
      if ((48 <=? n) && (n <=? 57))%Z then digits_val s' (acc * 10 + (n - 48))%Z else None
  end.
Definition int_text_val (s : string) : option Z :=
  match s with
  | EmptyString => None
  | String c s' =>
      if Ascii.eqb c "-"%char
      then match s' with EmptyString => None | _ => option_map Z.opp (digits_val s' 0) end
      else digits_val s 0
  end.
Definition cstoi (s : string) : comp Z :=
  match int_text_val s with
  | Some n => if ((-2147483648 <=? n) && (n <=? 2147483647))%Z then cret n else cesc
  | None => cesc
  end.

(** arith_functor.cpp 15-21, 37-39 (unordered_map::at throws std::out_of_range) *)
Definition op_index (s : string) : option Z :=
  if s =? "^" then Some 0%Z else if s =? "+" then Some 1%Z else if s =? "-" then Some 2%Z
  else if s =? "*" then Some 3%Z else if s =? "//" then Some 4%Z else None.
Definition copidx (s : string) : comp Z :=
  match op_index s with Some i => cret i | None => cesc end.

(** seen_register.h; A registers never occur as keys *)
Inductive sreg := SX (n : nat) | SY (n : nat).
Definition sreg_eqb (a b : sreg) : bool :=
  match a, b with SX n, SX m | SY n, SY m => Nat.eqb n m | _, _ => false end.
Definition seen_in (r : sreg) (l : list sreg) : bool := existsb (sreg_eqb r) l.

Definition short_arity (f : fview) : Z := wrap16 (Z.of_nat (fv_arity f)).

Section Gen.
(** y register of a permanent variable *)
Variable perm : string -> option nat.

(** undefined_var.cpp 9-26 *)
Definition check_undefined (vx : list (string * nat)) (seen : list sreg) (e : node) : bool :=
  forallb (fun s => match perm s with
                    | Some y => seen_in (SY y) seen
                    | None => match assoc s vx with Some x => seen_in (SX x) seen | None => false end
                    end) (vars_of e).

(** compiler.cpp 214-256: one child of a structure in a query *)
Definition query_kid (k : node * nat) (seen : list sreg) : comp (list instr * list sreg) :=
  let '(n, x) := k in
  match n with
  | NInt s => v <~ cstoi s ;; cret ([IPutStruct (CInt v) x], seen)
  | NCon s => i <~ cfidx (FV s 0) ;; cret ([IPutStruct (CCons i) x], seen)
  | _ =>
      match (match n with NVar s => perm s | _ => None end) with
      | Some y =>
          if seen_in (SY y) seen then cret ([ISetPVal y], seen)
          else v <~ cvar (node_name n) ;; cret ([ISetPVar y v], SY y :: seen)
      | None =>
          if seen_in (SX x) seen then cret ([ISetVal x], seen)
          else v <~ cvar (node_name n) ;; cret ([ISetVar x v], SX x :: seen)
      end
  end.
Fixpoint query_kids (ks : list (node * nat)) (seen : list sreg) : comp (list instr * list sreg) :=
  match ks with
  | [] => cret ([], seen)
  | k :: ks' =>
      '(c1, s1) <~ query_kid k seen ;;
      '(c2, s2) <~ query_kids ks' s1 ;;
      cret (c1 ++ c2, s2)
  end.

(** compiler.cpp 144-257: one flattened node of a query *)
Definition query_ent (vx : list (string * nat)) (e : ent) (seen : list sreg)
  : comp (list instr * list sreg) :=
  let x := en_x e in
  match en_node e with
  | NVar s =>
      match en_arg e with
      | None => cret ([], seen) (* does not occur: 145 *)
      | Some a =>
          match perm s with
          | Some y =>
              if seen_in (SY y) seen then cret ([IPutPVal y a], seen)
              else v <~ cvar s ;; cret ([IPutPVar y a v], SY y :: seen)
          | None =>
              if seen_in (SX x) seen then cret ([IPutVal x a], seen)
              else v <~ cvar s ;; cret ([IPutVar x a v], SX x :: seen)
          end
      end
  | NInt s => v <~ cstoi s ;; cret ([IPutStruct (CInt v) x], SX x :: seen)
  | NCon s => i <~ cfidx (FV s 0) ;; cret ([IPutStruct (CCons i) x], SX x :: seen)
  | NEv s l =>
      let seen1 := SX x :: seen in
      if check_undefined vx seen1 (en_node e) then
        i <~ copidx s ;;
        '(c, s2) <~ query_kids (en_kids e) seen1 ;;
        cret (IPutStruct (CEval i 2) x :: c, s2)
      else cthrow CNotInst
  | NFun s l =>
      let f := to_fview (en_node e) in
      i <~ cfidx f ;;
      '(c, s2) <~ query_kids (en_kids e) (SX x :: seen) ;;
      cret (IPutStruct (CFun i (short_arity f)) x :: c, s2)
  end.
Fixpoint query_ents (vx : list (string * nat)) (es : list ent) (seen : list sreg)
  : comp (list instr * list sreg) :=
  match es with
  | [] => cret ([], seen)
  | e :: es' =>
      '(c1, s1) <~ query_ent vx e seen ;;
      '(c2, s2) <~ query_ents vx es' s1 ;;
      cret (c1 ++ c2, s2)
  end.

(** compiler.cpp 134-261 *)
Definition to_query (a : aatom) (seen : list sreg) : comp (list instr * list sreg) :=
  '(c, s) <~ query_ents (aa_vx a) (flatten_query a) seen ;;
  cret (c ++ [ICall (to_fview (aa_top a))], s).

(** compiler.cpp 336-377: one child of a structure in a head *)
Definition prog_kid (k : node * nat) (seen : list sreg) : comp (list instr * list sreg) :=
  let '(n, x) := k in
  match n with
  | NInt s => v <~ cstoi s ;; cret ([IUniStruct (CInt v) x], seen)
  | NCon s => i <~ cfidx (FV s 0) ;; cret ([IUniStruct (CCons i) x], seen)
  | _ =>
      let p := match n with NVar s => perm s | _ => None end in
      if seen_in (SX x) seen then
        cret ([match p with Some y => IUniPVal y | None => IUniVal x end], seen)
      else
        v <~ cvar (node_name n) ;;
        match p with
        | Some y => cret ([IUniPVar y v], SY y :: SX x :: seen)
        | None => cret ([IUniVar x v], SX x :: seen)
        end
  end.
Fixpoint prog_kids (ks : list (node * nat)) (seen : list sreg) : comp (list instr * list sreg) :=
  match ks with
  | [] => cret ([], seen)
  | k :: ks' =>
      '(c1, s1) <~ prog_kid k seen ;;
      '(c2, s2) <~ prog_kids ks' s1 ;;
      cret (c1 ++ c2, s2)
  end.

(** compiler.cpp 273-378: one flattened node of a head *)
Definition prog_ent (e : ent) (seen : list sreg) : comp (list instr * list sreg) :=
  let x := en_x e in
  match en_node e with
  | NVar s =>
      match en_arg e with
      | None => cret ([], seen) (* does not occur *)
      | Some a =>
          if seen_in (SX x) seen then
            cret ([match perm s with Some y => IGetPVal y a | None => IGetVal x a end], seen)
          else
            match perm s with
            | Some y => cret ([IGetPVar y a], SY y :: SX x :: seen)
            | None => cret ([IGetVar x a], SX x :: seen)
            end
      end
  | NInt s => v <~ cstoi s ;; cret ([IGetStruct (CInt v) x], seen)
  | NEv s l =>
      i <~ copidx s ;;
      '(c, s2) <~ prog_kids (en_kids e) seen ;;
      cret (IGetStruct (CEval i 2) x :: c, s2)
  | NFun s l =>
      let f := to_fview (en_node e) in
      i <~ cfidx f ;;
      '(c, s2) <~ prog_kids (en_kids e) seen ;;
      cret (IGetStruct (CFun i (short_arity f)) x :: c, s2)
  | NCon s => i <~ cfidx (FV s 0) ;; cret ([IGetStruct (CCons i) x], seen)
  end.
Fixpoint prog_ents (es : list ent) (seen : list sreg) : comp (list instr * list sreg) :=
  match es with
  | [] => cret ([], seen)
  | e :: es' =>
      '(c1, s1) <~ prog_ent e seen ;;
      '(c2, s2) <~ prog_ents es' s1 ;;
      cret (c1 ++ c2, s2)
  end.

(** compiler.cpp 263-382 *)
Definition to_program (a : aatom) (seen : list sreg) : comp (list instr * list sreg) :=
  '(c, s) <~ prog_ents (flatten_program a) seen ;;
  cret (c ++ [IProceed], s).

(** node_util.cpp 13-37: (name, register, is_permanent) *)
Fixpoint var_regs (vs : list string) (vx : list (string * nat)) (done : list string)
  : list (string * nat * bool) :=
  match vs with
  | [] => []
  | s :: vs' =>
      if existsb (String.eqb s) done then var_regs vs' vx done
      else
        (match perm s with
         | Some y => (s, y, true)
         | None => (s, match assoc s vx with Some x => x | None => 0 end, false)
         end) :: var_regs vs' vx (s :: done)
  end.
Definition find_var_reg_substitutions (a : aatom) : list (string * nat * bool) :=
  if is_constant (aa_top a) then [] else var_regs (vars_of (aa_top a)) (aa_vx a) [].
End Gen.

(** compiled_atom.h 20-35 without code_info and belongs_to *)
Record catom := {
  ca_regs : nat;                               (** expected_register_count *)
  ca_code : list instr;
  ca_subs : list (string * nat * bool);        (** substitutions *)
  ca_node : node;                              (** parsed_atom *)
  ca_user : bool                               (** is_from_orig_query *)
}.
(** rule.h 11-14 *)
Definition rule := list catom.

Definition not_x (r : sreg) : bool := match r with SX _ => false | SY _ => true end.
(** compiler.cpp 384-391 *)
Definition remove_x_a_regs (l : list sreg) : list sreg := filter not_x l.

(** compiler.cpp 429-453; [pre]: instructions generated so far (allocate) *)
Definition compile_query_atom (perm : string -> option nat) (pre : list instr) (user : bool)
  (n : node) (seen : list sreg) : comp (catom * list sreg) :=
  let '(a, cnt) := assign_one n in
  '(c, s) <~ to_query perm a seen ;;
  cret ({| ca_regs := cnt; ca_code := pre ++ c;
           ca_subs := find_var_reg_substitutions perm a; ca_node := n; ca_user := user |},
        remove_x_a_regs s).
Fixpoint compile_query_atoms (perm : string -> option nat) (pre : list instr) (user : bool)
  (ns : list node) (seen : list sreg) : comp (list catom) :=
  match ns with
  | [] => cret []
  | n :: ns' =>
      '(a, s) <~ compile_query_atom perm pre user n seen ;;
      r <~ compile_query_atoms perm [] user ns' s ;;
      cret (a :: r)
  end.

Definition alloc_code (n : nat) : list instr := if Nat.eqb n 0 then [] else [IAlloc n].

(** compiler.cpp 393-427, after parsing *)
Definition compile_query (cf : cfg) (atoms : list node) : comp rule :=
  let ps := perm_order cf atoms false in
  compile_query_atoms (fun s => pos_of s ps) (alloc_code (List.length ps)) true atoms [].

(** compiler.cpp 522-528: registers of functors and constants below the head *)
Definition erase_head_regs (a : aatom) (seen : list sreg) : list sreg :=
  if is_constant (aa_top a) then seen
  else
    let gone := flat_map (fun e => match en_node e with
                                   | NFun _ _ | NCon _ => [SX (en_x e)]
                                   | _ => [] end) (aa_ents a) in
    filter (fun r => negb (seen_in r gone)) seen.

(** redefinition_of_built_in_pred.cpp 8-18 *)
Definition redefines (n : node) : bool :=
  ((node_name n =? "append") && Nat.eqb (List.length (kids n)) 3)
  || ((node_name n =? "is") && Nat.eqb (List.length (kids n)) 2).

Definition dealloc_atom : catom :=
  {| ca_regs := 0; ca_code := [IDealloc]; ca_subs := []; ca_node := NCon "DEALLOCATE"; ca_user := false |}.

(** compiler.cpp 487-585 *)
Definition compile_program_term (cf : cfg) (built_in : bool) (atoms : list node) : comp (fview * rule) :=
  match atoms with
  | [] => cesc (* atoms.at(0): the grammar never produces an empty clause *)
  | h :: body =>
      let ps := perm_order cf atoms true in
      let perm := fun s => pos_of s ps in
      let np := List.length ps in
      if negb built_in && redefines h then cthrow CRedef
      else
        let '(ha, oba, cnt) :=
          match body with
          | [] => let '(ha, c) := assign_one h in (ha, None, c)
          | b :: _ => let '(ha, ba, c) := assign_two h b in (ha, Some ba, c)
          end in
        '(hc, s1) <~ to_program perm ha [] ;;
        let s2 := erase_head_regs ha s1 in
        let hatom := {| ca_regs := cnt; ca_code := alloc_code np ++ hc;
                        ca_subs := find_var_reg_substitutions perm ha;
                        ca_node := h; ca_user := false |} in
        '(firsts, s3) <~ (match oba with
                          | None => cret ([], s2)
                          | Some ba =>
                              '(bc, s3) <~ to_query perm ba s2 ;;
                              cret ([{| ca_regs := cnt; ca_code := bc;
                                        ca_subs := find_var_reg_substitutions perm ba;
                                        ca_node := aa_top ba; ca_user := false |}], s3)
                          end) ;;
        others <~ compile_query_atoms perm [] false (tl body) (remove_x_a_regs s3) ;;
        cret (to_fview h,
              hatom :: firsts ++ others ++ (if Nat.eqb np 0 then [] else [dealloc_atom]))
  end.

(** unordered_map<functor_view, vector<rule>> as an association list without repeated keys *)
Definition prog := list (fview * list rule).
Fixpoint plookup (f : fview) (p : prog) : option (list rule) :=
  match p with
  | [] => None
  | (g, rs) :: p' => if fview_eqb f g then Some rs else plookup f p'
  end.
Fixpoint padd (f : fview) (r : rule) (p : prog) : prog :=
  match p with
  | [] => [(f, [r])]
  | (g, rs) :: p' => if fview_eqb f g then (g, rs ++ [r]) :: p' else (g, rs) :: padd f r p'
  end.
Fixpoint pset (f : fview) (rs : list rule) (p : prog) : prog :=
  match p with
  | [] => [(f, rs)]
  | (g, rs') :: p' => if fview_eqb f g then (g, rs) :: p' else (g, rs') :: pset f rs p'
  end.

(** compiler.cpp 455-485, after parsing (comments are already dropped) *)
Fixpoint compile_clauses (cf : cfg) (built_in : bool) (cs : list (list node)) (p : prog) : comp prog :=
  match cs with
  | [] => cret p
  | c :: cs' =>
      '(f, r) <~ compile_program_term cf built_in c ;;
      compile_clauses cf built_in cs' (padd f r p)
  end.
Definition compile_program (cf : cfg) (cs : list (list node)) : comp prog := compile_clauses cf false cs [].

(** --- built-in predicates --- *)

(** append.cpp 7-46 *)
Definition append_clauses : list (list node) :=
  [ [NFun "append" [NFun "[" []; NVar "List2"; NVar "List2"]];
    [NFun "append" [NFun "[" [NVar "X"; NVar "Xs"]; NVar "Ys"; NFun "[" [NVar "X"; NVar "Rs"]];
     NFun "append" [NVar "Xs"; NVar "Ys"; NVar "Rs"]] ].

(** built_in_pred_comp.cpp 11-21 *)
Definition binary_pred (nm : string) : node := NFun nm [NVar "Lhs"; NVar "Rhs"].

(** built_in_pred_comp.cpp 41-43: insert before the last instruction of the head atom *)
Definition insert_before_last (i : instr) (l : list instr) : list instr :=
  removelast l ++ [i] ++ skipn (List.length l - 1) l.
Definition insert_pred (f : nat -> nat -> instr) (xl xr : nat) (r : rule) : rule :=
  match r with
  | [] => []
  | a :: r' => {| ca_regs := ca_regs a; ca_code := insert_before_last (f xl xr) (ca_code a);
                  ca_subs := ca_subs a; ca_node := ca_node a; ca_user := ca_user a |} :: r'
  end.
(** x registers of Lhs and Rhs *)
Definition pred_regs (n : node) : nat * nat :=
  let '(a, _) := assign_one n in
  match map en_x (aa_ents a) with x1 :: x2 :: _ => (x1, x2) | _ => (0, 0) end.

Definition compile_binary (cf : cfg) (nm : string) (f : nat -> nat -> instr) (p : prog) : comp prog :=
  let n := binary_pred nm in
  let '(xl, xr) := pred_regs n in
  '(fv, r) <~ compile_program_term cf true [n] ;;
  cret (padd fv (insert_pred f xl xr r) p).

(** built_in_pred_comp.cpp 23-61 *)
Definition compile_built_ins (cf : cfg) : comp prog :=
  p1 <~ compile_binary cf "is" IIs [] ;;
  p2 <~ compile_binary cf "==" IEq p1 ;;
  p3 <~ compile_binary cf "\==" INeq p2 ;;
  compile_clauses cf true append_clauses p3.
