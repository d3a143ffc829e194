(** Basic data of the machine: cells, functors, storage, outcomes. *)
From Coq Require Export List Arith ZArith Bool String Ascii Lia.
Export ListNotations.
Open Scope nat_scope.

(** Kinds of undefined behaviour, failed assertions and escaping exceptions. *)
Inductive ub :=
| UHeap       (** heap address out of range (assert in executor.cpp 33, 54) *)
| UReg        (** register index out of range: registers.at / permanent_registers.at *)
| UTag        (** accessor used on a cell of another tag (heap_reg.h 42-73) *)
| UEnv        (** no environment (executor.h 102) *)
| UMode       (** read/write mode never initialised (executor.h 82) *)
| UCode       (** empty term_codes stack *)
| UDangling   (** pointer to a compiled atom that has been freed *)
| UStorage    (** functor or variable table index out of range *)
| UCast       (** double -> int conversion out of range (expr_evaluator.cpp 56) *)
| UAssert     (** any other assert(false) *)
| UExec.      (** dangling executor *)

(** Result of a modelled C++ computation. [Fuel]: did not return within the given fuel. *)
Inductive out (A : Type) :=
| Val (a : A)
| Ub (u : ub)
| Fuel.
Arguments Val {A} a. Arguments Ub {A} u. Arguments Fuel {A}.

Definition bind {A B} (m : out A) (f : A -> out B) : out B :=
  match m with Val a => f a | Ub u => Ub u | Fuel => Fuel end.
Notation "x <- m ;; k" := (bind m (fun x => k)) (at level 61, m at next level, right associativity).
Notation "' p <- m ;; k" := (bind m (fun x => let p := x in k))
  (at level 61, p pattern, m at next level, right associativity).

Definition of_opt {A} (u : ub) (o : option A) : out A :=
  match o with Some a => Val a | None => Ub u end.

(** heap_reg.h 14-22 with heap_tag.h 11-18. [CRef a v]: REF with index a and var_index v (unbound iff it
    refers to itself). [CFun i ar]: functor table index and arity. [CEval i ar]: arithmetic operator.
    Heap addresses are [nat] (the code uses int; heaps beyond 2^31 cells are not modelled). *)
Inductive cell :=
| CCons (i : Z)
| CInt (n : Z)
| CRef (a : nat) (v : Z)
| CFun (i ar : Z)
| CEval (i ar : Z)
| CStr (a : nat).

(** heap_reg.cpp 19-23 (unused var_index fields are 0 on both sides). *)
Definition cell_eqb (c d : cell) : bool :=
  match c, d with
  | CCons i, CCons j => Z.eqb i j
  | CInt i, CInt j => Z.eqb i j
  | CRef a v, CRef b w => Nat.eqb a b && Z.eqb v w
  | CFun i n, CFun j m => Z.eqb i j && Z.eqb n m
  | CEval i n, CEval j m => Z.eqb i j && Z.eqb n m
  | CStr a, CStr b => Nat.eqb a b
  | _, _ => false
  end.

(** heap_reg() = default followed by value initialisation in vector::resize and
    environment.h 15: all fields zero, tag 0 = CONS. *)
Definition cell0 : cell := CCons 0%Z.

(** heap_reg.h 60-63 *)
Definition get_heap_i (c : cell) : out nat :=
  match c with CRef a _ | CStr a => Val a | _ => Ub UTag end.

(** The raw field [index] of a cell, whatever its tag (heap_reg.h 15). *)
Definition raw_index (c : cell) : Z :=
  match c with
  | CCons i | CInt i | CFun i _ | CEval i _ => i
  | CRef a _ | CStr a => Z.of_nat a
  end.

(** static_cast<short> *)
Definition wrap16 (z : Z) : Z := (((z + 32768) mod 65536) - 32768)%Z.

(** functor_view.h 11-16 *)
Record fview := FV { fv_name : string; fv_arity : nat }.
Definition fview_eqb (f g : fview) : bool :=
  Nat.eqb (fv_arity f) (fv_arity g) && String.eqb (fv_name f) (fv_name g).

(** storage.h 19-25. functor_index_map always sends a functor to its (unique) position in [functors],
    so it is not kept separately. *)
Record storage := { s_functors : list fview; s_vars : list string }.
Definition empty_storage : storage := {| s_functors := []; s_vars := [] |}.

Fixpoint fv_pos (f : fview) (l : list fview) : option nat :=
  match l with
  | [] => None
  | g :: l' => if fview_eqb f g then Some 0 else option_map S (fv_pos f l')
  end.

(** storage.h 27-38: returns short. *)
Definition functor_index_of (f : fview) (s : storage) : Z * storage :=
  match fv_pos f (s_functors s) with
  | Some k => (wrap16 (Z.of_nat k), s)
  | None => (wrap16 (Z.of_nat (List.length (s_functors s))),
             {| s_functors := s_functors s ++ [f]; s_vars := s_vars s |})
  end.

(** storage.h 40-43: returns short. *)
Definition push_back_var (nm : string) (s : storage) : Z * storage :=
  (wrap16 (Z.of_nat (List.length (s_vars s))),
   {| s_functors := s_functors s; s_vars := s_vars s ++ [nm] |}).

(** vector::operator[] with a (converted) signed index. *)
Definition nthZ {A} (l : list A) (i : Z) : option A :=
  if (i <? 0)%Z then None else nth_error l (Z.to_nat i).

(** Functional update of a vector element; [None] if out of range (vector::at throws). *)
Fixpoint upd {A} (l : list A) (i : nat) (a : A) : option (list A) :=
  match l, i with
  | [], _ => None
  | _ :: l', 0 => Some (a :: l')
  | b :: l', S i' => option_map (cons b) (upd l' i' a)
  end.

(** vector::resize *)
Definition resize (l : list cell) (n : nat) : list cell :=
  firstn n l ++ repeat cell0 (n - List.length l).

(** runtime_error_type.h 8-17, restricted to what execution can raise; [ENotArith] carries the functor
    named in the message, [EUnbound] the variable name (err_handling.cpp 8-27). *)
Inductive rterr :=
| EDivBy0
| EUnbound (v : string)
| ENotArith (f : fview).

(** Parameters of the environment the code runs in: hash iteration order of the permanent variables
    (compiler.cpp 678) and the C library's powf. A float result is m*2^e, infinity or NaN. *)
Inductive fval := FFin (m e : Z) | FInf | FNan.
Record cfg := { c_ord : list string -> list string; c_powf : Z -> Z -> fval }.
