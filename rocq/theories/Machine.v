(** The local instructions of the machine, over an abstract heap interface. *)
From Verif Require Import Base.

(** Heap interface used by the instructions: executor::heap_at, heap_size, push_back, and
    heap_modify(i) followed by an assignment. *)
Record hops (H : Type) := {
  h_at : H -> nat -> option cell;
  h_size : H -> nat;
  h_push : H -> cell -> H;
  h_set : H -> nat -> cell -> option H
}.
Arguments h_at {H}. Arguments h_size {H}. Arguments h_push {H}. Arguments h_set {H}.

Inductive rwmode := MRead | MWrite.

(** compiled instructions: the std::bind objects of compiler.cpp and built_in_pred_comp.cpp. *)
Inductive instr :=
| IPutStruct (c : cell) (x : nat)
| ISetVar (x : nat) (v : Z)
| ISetPVar (y : nat) (v : Z)
| ISetVal (x : nat)
| ISetPVal (y : nat)
| IGetStruct (c : cell) (x : nat)
| IUniStruct (c : cell) (x : nat)
| IUniVar (x : nat) (v : Z)
| IUniPVar (y : nat) (v : Z)
| IUniVal (x : nat)
| IUniPVal (y : nat)
| IPutVar (x a : nat) (v : Z)
| IPutPVar (y a : nat) (v : Z)
| IPutVal (x a : nat)
| IPutPVal (y a : nat)
| IGetVar (x a : nat)
| IGetPVar (y a : nat)
| IGetVal (x a : nat)
| IGetPVal (y a : nat)
| ICall (f : fview)
| IProceed
| IAlloc (n : nat)
| IDealloc
| IIs (x y : nat)
| IEq (x y : nat)
| INeq (x y : nat).

(** The part of an executor the local instructions work on (executor.h 65, 80-91). The environment
    stack has its top ("back") at the head of the list. [m_mode]: None = uninitialised. *)
Record mst (H : Type) := {
  m_heap : H;
  m_regs : list cell;
  m_mode : option rwmode;
  m_S : nat;
  m_envs : list (list cell)
}.
Arguments m_heap {H}. Arguments m_regs {H}. Arguments m_mode {H}. Arguments m_S {H}. Arguments m_envs {H}.

(** What an instruction did: went on, set the executor to FAIL, or threw an ERROR_TYPE. *)
Inductive istat := Cont | Failing | Raise (e : rterr).

Section Machine.
Variable H : Type.
Variable ops : hops H.
Variable cf : cfg.
Variable sto : storage.

Definition set_heap (m : mst H) (h : H) : mst H :=
  {| m_heap := h; m_regs := m_regs m; m_mode := m_mode m; m_S := m_S m; m_envs := m_envs m |}.
Definition set_regs (m : mst H) (r : list cell) : mst H :=
  {| m_heap := m_heap m; m_regs := r; m_mode := m_mode m; m_S := m_S m; m_envs := m_envs m |}.
Definition set_envs (m : mst H) (e : list (list cell)) : mst H :=
  {| m_heap := m_heap m; m_regs := m_regs m; m_mode := m_mode m; m_S := m_S m; m_envs := e |}.
Definition set_mode (m : mst H) (w : rwmode) (s : nat) : mst H :=
  {| m_heap := m_heap m; m_regs := m_regs m; m_mode := Some w; m_S := s; m_envs := m_envs m |}.
Definition inc_S (m : mst H) : mst H :=
  {| m_heap := m_heap m; m_regs := m_regs m; m_mode := m_mode m; m_S := S (m_S m); m_envs := m_envs m |}.

Definition at_ (h : H) (i : nat) : out cell := of_opt UHeap (h_at ops h i).
Definition hset (h : H) (i : nat) (c : cell) : out H := of_opt UHeap (h_set ops h i c).

(** registers.at(i) = c; reading registers.at(i) *)
Definition wreg (m : mst H) (i : nat) (c : cell) : out (mst H) :=
  r <- of_opt UReg (upd (m_regs m) i c) ;; Val (set_regs m r).
Definition rreg (m : mst H) (i : nat) : out cell := of_opt UReg (nth_error (m_regs m) i).

(** cur_permanent_registers() (executor.h 101-104) with .at *)
Definition wperm (m : mst H) (y : nat) (c : cell) : out (mst H) :=
  match m_envs m with
  | [] => Ub UEnv
  | e :: es => e' <- of_opt UReg (upd e y c) ;; Val (set_envs m (e' :: es))
  end.
Definition rperm (m : mst H) (y : nat) : out cell :=
  match m_envs m with
  | [] => Ub UEnv
  | e :: _ => of_opt UReg (nth_error e y)
  end.

(** instructions_util.cpp 28-44. The loop is bounded by the heap size plus one; running out of it means
    the C++ loop does not end. *)
Fixpoint deref_aux (fuel : nat) (h : H) (a : nat) : out nat :=
  match fuel with
  | 0 => Fuel
  | S f =>
      c <- at_ h a ;;
      match c with
      | CRef b _ | CStr b => if Nat.eqb b a then Val a else deref_aux f h b
      | _ => Val a
      end
  end.
Definition deref (h : H) (a : nat) : out nat := deref_aux (S (h_size ops h)) h a.

(** heap_modify(d).bind_to(t): instructions.cpp 66, 88, 228, 230; heap_reg.h 65-68 asserts REF. *)
Definition bind_ref (h : H) (d t : nat) : out H :=
  c <- at_ h d ;;
  match c with
  | CRef _ v => hset h d (CRef t v)
  | _ => Ub UTag
  end.

(** PDL pushes of instructions.cpp 256-259: for i = 1..n push d1+i, push d2+i. The list head is the top. *)
Fixpoint push_args (n i d1 d2 : nat) (pdl : list nat) : list nat :=
  match n with
  | 0 => pdl
  | S n' => push_args n' (S i) d1 d2 ((d2 + i) :: (d1 + i) :: pdl)
  end.

(** instructions.cpp 218-279: the loop of unify; the boolean is false when the executor failed. *)
Fixpoint unify_loop (fuel : nat) (h : H) (pdl : list nat) : out (bool * H) :=
  match pdl with
  | [] => Val (true, h)
  | [_] => Ub UAssert
  | a :: b :: rest =>
      match fuel with
      | 0 => Fuel
      | S f =>
          d1 <- deref h a ;;
          d2 <- deref h b ;;
          if Nat.eqb d1 d2 then unify_loop f h rest
          else
            c1 <- at_ h d1 ;;
            c2 <- at_ h d2 ;;
            match c1, c2 with
            | CRef _ _, _ => h' <- bind_ref h d1 d2 ;; unify_loop f h' rest
            | _, CRef _ _ => h' <- bind_ref h d2 d1 ;; unify_loop f h' rest
            | CInt n, CInt m => if Z.eqb n m then unify_loop f h rest else Val (false, h)
            | CCons n, CCons m => if Z.eqb n m then unify_loop f h rest else Val (false, h)
            | CFun i n, CFun j _ =>
                if Z.eqb i j then unify_loop f h (push_args (Z.to_nat n) 1 d1 d2 rest)
                else Val (false, h)
            | CEval i n, CEval j _ =>
                if Z.eqb i j then unify_loop f h (push_args (Z.to_nat n) 1 d1 d2 rest)
                else Val (false, h)
            | CStr _, CStr _ => Ub UAssert
            | _, _ => Val (false, h)
            end
      end
  end.

(** instructions.cpp 210-217 *)
Definition unify (fuel : nat) (h : H) (a b : nat) : out (bool * H) := unify_loop fuel h [a; b].

Definition unify_m (fuel : nat) (m : mst H) (a b : nat) : out (istat * mst H) :=
  '(ok, h') <- unify fuel (m_heap m) a b ;;
  Val (if ok then Cont else Failing, set_heap m h').

Definition push (m : mst H) (c : cell) : mst H := set_heap m (h_push ops (m_heap m) c).
Definition hsize (m : mst H) : nat := h_size ops (m_heap m).

(** executor.h 137-139; the pushed cell is also what heap_back() returns afterwards. *)
Definition push_ref (m : mst H) (v : Z) : mst H * cell :=
  let c := CRef (hsize m) v in (push m c, c).

(** instructions.cpp 55-75 *)
Definition get_structure (m : mst H) (st : cell) (x : nat) : out (istat * mst H) :=
  r <- rreg m x ;; a0 <- get_heap_i r ;;
  addr <- deref (m_heap m) a0 ;;
  c <- at_ (m_heap m) addr ;;
  match c with
  | CRef _ _ =>
      let m1 := push m st in
      h' <- bind_ref (m_heap m1) addr (hsize m1 - 1) ;;
      Val (Cont, set_mode (set_heap m1 h') MWrite (m_S m))
  | _ =>
      if cell_eqb c st then Val (Cont, set_mode m MRead (addr + 1))
      else Val (Failing, m)
  end.

(** instructions.cpp 77-105 *)
Definition unify_structure (m : mst H) (st : cell) (x : nat) : out (istat * mst H) :=
  match m_mode m with
  | None => Ub UMode
  | Some MRead =>
      addr <- deref (m_heap m) (m_S m) ;;
      c <- at_ (m_heap m) addr ;;
      match c with
      | CRef _ _ =>
          let m1 := push m st in
          h' <- bind_ref (m_heap m1) addr (hsize m1 - 1) ;;
          Val (Cont, inc_S (set_heap m1 h'))
      | _ => if cell_eqb c st then Val (Cont, inc_S m) else Val (Failing, inc_S m)
      end
  | Some MWrite =>
      let m1 := push m st in
      m2 <- wreg m1 x (CStr (hsize m1 - 1)) ;;
      Val (Cont, inc_S m2)
  end.

(** instructions.cpp 107-124 and 126-142; [wr] writes the X or the permanent register. *)
Definition unify_variable (wr : mst H -> nat -> cell -> out (mst H)) (m : mst H) (x : nat) (v : Z)
  : out (istat * mst H) :=
  match m_mode m with
  | None => Ub UMode
  | Some MRead => m1 <- wr m x (CStr (m_S m)) ;; Val (Cont, inc_S m1)
  | Some MWrite =>
      let '(m1, c) := push_ref m v in
      m2 <- wr m1 x c ;; Val (Cont, inc_S m2)
  end.

(** instructions.cpp 144-175 and 177-208; [c] is the content of the X or the permanent register. *)
Definition unify_value (fuel : nat) (m : mst H) (c : cell) : out (istat * mst H) :=
  match m_mode m with
  | None => Ub UMode
  | Some MRead =>
      a <- get_heap_i c ;;
      '(s, m1) <- unify_m fuel m a (m_S m) ;;
      Val (s, inc_S m1)
  | Some MWrite =>
      a <- get_heap_i c ;;
      d <- deref (m_heap m) a ;;
      r <- at_ (m_heap m) d ;;
      match r with
      | CCons _ | CInt _ | CRef _ _ => Val (Cont, inc_S (push m r))
      | CFun _ _ | CEval _ _ => Val (Cont, inc_S (push m (CStr d)))
      | CStr _ => Ub UAssert
      end
  end.

(** instructions.cpp 331-344 *)
Definition get_value (fuel : nat) (m : mst H) (c d : cell) : out (istat * mst H) :=
  a <- get_heap_i c ;; b <- get_heap_i d ;; unify_m fuel m a b.

(** Built-in predicates. *)

(** equals.cpp 9-18 *)
Fixpoint args_equal (eqf : nat -> nat -> out bool) (n a b : nat) : out bool :=
  match n with
  | 0 => Val true
  | S n' => r <- eqf a b ;; if r then args_equal eqf n' (S a) (S b) else Val false
  end.

(** equals.cpp 20-39 *)
Fixpoint heap_reg_equals (fuel : nat) (h : H) (a b : nat) : out bool :=
  match fuel with
  | 0 => Fuel
  | S f =>
      d1 <- deref h a ;; d2 <- deref h b ;;
      c1 <- at_ h d1 ;; c2 <- at_ h d2 ;;
      if cell_eqb c1 c2 then
        match c1 with
        | CRef _ _ => Val (Nat.eqb d1 d2)
        | CFun _ n | CEval _ n => args_equal (heap_reg_equals f h) (Z.to_nat n) (d1 + 1) (d2 + 1)
        | _ => Val true
        end
      else Val false
  end.

(** equals.cpp 41-47 *)
Definition equals_check (fuel : nat) (m : mst H) (x y : nat) : out (istat * mst H) :=
  c <- rreg m x ;; a <- get_heap_i c ;;
  d <- rreg m y ;; b <- get_heap_i d ;;
  r <- heap_reg_equals fuel (m_heap m) a b ;;
  Val (if r then Cont else Failing, m).

(** not_equals.cpp 9-23 *)
Definition not_equals_check (fuel : nat) (m : mst H) (x y : nat) : out (istat * mst H) :=
  '(s, m1) <- equals_check fuel m x y ;;
  Val (match s with Failing => Cont | _ => Failing end, m1).

(** (int) value, expr_evaluator.cpp 56: undefined when the truncated value is not an int. *)
Definition to_int (z : Z) : out Z :=
  if ((-2147483648 <=? z) && (z <=? 2147483647))%Z then Val z else Ub UCast.

(** truncation towards zero of a float *)
Definition trunc_fval (v : fval) : option Z :=
  match v with
  | FFin m e => Some (if (0 <=? e)%Z then (m * 2 ^ e)%Z else Z.quot m (2 ^ (- e)))
  | _ => None
  end.

(** arith_functor.cpp 28-34 applied as in expr_evaluator.cpp 50-57. The double operations + - * and
    the truncated double quotient agree with the integer operations whenever the result fits an int
    (Double.v), and are out of range exactly when those are. *)
Definition apply_op (i l r : Z) : out Z :=
  match i with
  | 0%Z => match trunc_fval (c_powf cf l r) with Some z => to_int z | None => Ub UCast end
  | 1%Z => to_int (l + r)
  | 2%Z => to_int (l - r)
  | 3%Z => to_int (l * r)
  | 4%Z => to_int (Z.quot l r)
  | _ => Ub UStorage
  end.

Inductive evres := EvInt (n : Z) | EvErr (e : rterr).

(** err_handling.cpp 9-16: functor_of(FUN_index{reg.index}) reads the heap at the functor table index and
    uses the raw index of that cell as functor table index (executor.cpp 9-11). *)
Definition err_functor (h : H) (i : Z) : out fview :=
  if (i <? 0)%Z then Ub UHeap
  else
    c <- at_ h (Z.to_nat i) ;;
    of_opt UStorage (nthZ (s_functors sto) (raw_index c)).

(** expr_evaluator.cpp 12-58, err_handling.cpp 8-27, arithmetic_checks.cpp 8-18. All operators are binary
    (arith_functor.cpp 23, 44-46). *)
Fixpoint eval_reg (fuel : nat) (h : H) (a : nat) : out evres :=
  match fuel with
  | 0 => Fuel
  | S f =>
      d <- deref h a ;;
      c <- at_ h d ;;
      match c with
      | CFun i _ | CCons i => fv <- err_functor h i ;; Val (EvErr (ENotArith fv))
      | CRef _ v => nm <- of_opt UStorage (nthZ (s_vars sto) v) ;; Val (EvErr (EUnbound nm))
      | CInt n => Val (EvInt n)
      | CEval i _ =>
          l <- eval_reg f h (d + 1) ;;
          match l with
          | EvErr e => Val (EvErr e)
          | EvInt lv =>
              r <- eval_reg f h (d + 2) ;;
              match r with
              | EvErr e => Val (EvErr e)
              | EvInt rv =>
                  if (Z.eqb i 4 && Z.eqb rv 0)%bool then Val (EvErr EDivBy0)
                  else v <- apply_op i lv rv ;; Val (EvInt v)
              end
          end
      | CStr _ => Ub UAssert
      end
  end.

(** is.cpp 9-31 *)
Definition is_pred (fuel : nat) (m : mst H) (x y : nat) : out (istat * mst H) :=
  ry <- rreg m y ;; b <- get_heap_i ry ;;
  v <- eval_reg fuel (m_heap m) b ;;
  match v with
  | EvErr e => Val (Raise e, m)
  | EvInt n =>
      rx <- rreg m x ;; a <- get_heap_i rx ;;
      d <- deref (m_heap m) a ;;
      c <- at_ (m_heap m) d ;;
      match c with
      | CInt k => Val (if Z.eqb k n then Cont else Failing, m)
      | CRef _ _ =>
          let m1 := push m (CInt n) in
          h' <- bind_ref (m_heap m1) d (hsize m1 - 1) ;;
          Val (Cont, set_heap m1 h')
      | _ => Val (Failing, m)
      end
  end.

(** One instruction that concerns only the executor itself (all but call, proceed, deallocate). *)
Definition local_step (fuel : nat) (i : instr) (m : mst H) : out (istat * mst H) :=
  let ok (r : out (mst H)) : out (istat * mst H) := m1 <- r ;; Val (Cont, m1) in
  match i with
  (* 16-22 *)
  | IPutStruct c x => let m1 := push m c in ok (wreg m1 x (CStr (hsize m1 - 1)))
  (* 24-30 *)
  | ISetVar x v => let '(m1, c) := push_ref m v in ok (wreg m1 x c)
  (* 32-39 *)
  | ISetPVar y v => let '(m1, c) := push_ref m v in ok (wperm m1 y c)
  (* 41-46 *)
  | ISetVal x => c <- rreg m x ;; Val (Cont, push m c)
  (* 48-53 *)
  | ISetPVal y => c <- rperm m y ;; Val (Cont, push m c)
  | IGetStruct c x => get_structure m c x
  | IUniStruct c x => unify_structure m c x
  | IUniVar x v => unify_variable wreg m x v
  | IUniPVar y v => unify_variable wperm m y v
  | IUniVal x => c <- rreg m x ;; unify_value fuel m c
  | IUniPVal y => c <- rperm m y ;; unify_value fuel m c
  (* 282-289 *)
  | IPutVar x a v => let '(m1, c) := push_ref m v in m2 <- wreg m1 x c ;; ok (wreg m2 a c)
  (* 291-300 *)
  | IPutPVar y a v => let '(m1, c) := push_ref m v in m2 <- wperm m1 y c ;; ok (wreg m2 a c)
  (* 302-307 *)
  | IPutVal x a => c <- rreg m x ;; ok (wreg m a c)
  (* 309-315 *)
  | IPutPVal y a => c <- rperm m y ;; ok (wreg m a c)
  (* 317-322 *)
  | IGetVar x a => c <- rreg m a ;; ok (wreg m x c)
  (* 324-329 *)
  | IGetPVar y a => c <- rreg m a ;; ok (wperm m y c)
  (* 331-336 *)
  | IGetVal x a => c <- rreg m x ;; d <- rreg m a ;; get_value fuel m c d
  (* 338-344 *)
  | IGetPVal y a => c <- rperm m y ;; d <- rreg m a ;; get_value fuel m c d
  (* 415-421, environment.h 15 *)
  | IAlloc n => Val (Cont, set_envs m (repeat cell0 n :: m_envs m))
  | IIs x y => is_pred fuel m x y
  | IEq x y => equals_check fuel m x y
  | INeq x y => not_equals_check fuel m x y
  | ICall _ | IProceed | IDealloc => Ub UAssert
  end.

End Machine.

Arguments set_heap {H}. Arguments set_regs {H}. Arguments set_envs {H}. Arguments set_mode {H}.
Arguments inc_S {H}.
