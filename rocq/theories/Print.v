(** Terms on the heap as text. *)
From Coq Require Import Decimal DecimalString.
From Verif Require Import Base Machine.
Open Scope string_scope.

(** std::to_string on an integer: decimal digits, with a minus sign if negative. *)
Definition string_of_Z (z : Z) : string := NilZero.string_of_int (Z.to_int z).
Definition string_of_nat (n : nat) : string := string_of_Z (Z.of_nat n).

(** result.back() = c on a non-empty string *)
Fixpoint set_last (s : string) (c : ascii) : out string :=
  match s with
  | EmptyString => Ub UAssert
  | String _ EmptyString => Val (String c EmptyString)
  | String b s' => r <- set_last s' c ;; Val (String b r)
  end.

(** arith_functor.cpp 15-21, 41-43 *)
Definition op_name (i : Z) : option string :=
  match i with
  | 0%Z => Some "^" | 1%Z => Some "+" | 2%Z => Some "-" | 3%Z => Some "*" | 4%Z => Some "//"
  | _ => None
  end.

(** functor_view.h 19-31 *)
Definition fv_is_list (f : fview) : bool := fv_name f =? "[".
Definition fv_is_empty_list (f : fview) : bool := fv_is_list f && Nat.eqb (fv_arity f) 0.
Definition fv_is_append (f : fview) : bool := fv_name f =? "|".

Section Print.
Variable H : Type.
Variable ops : hops H.
Variable sto : storage.

(** substitution_util.cpp 152-157: arguments k .. k+n-1 separated by commas *)
Fixpoint str_args (p : nat -> out string) (n k : nat) : out string :=
  match n with
  | 0 => p k
  | S n' => a <- p k ;; r <- str_args p n' (S k) ;; Val (a ++ "," ++ r)
  end.

(** substitution_util.cpp 70-183. [users]: names of the user entered variables; the operator table has only
    binary operators, so the case of arity 1 (166-170) does not occur. *)
Fixpoint str_of (fuel : nat) (h : H) (users : list string) (contig : bool) (index : nat) : out string :=
  match fuel with
  | 0 => Fuel
  | S f =>
      d <- deref H ops h index ;;
      c <- at_ H ops h d ;;
      match c with
      | CRef _ v =>
          nm <- of_opt UStorage (nthZ (s_vars sto) v) ;;
          Val (if Nat.eqb index d && negb (existsb (fun u => u =? nm) users)
               then nm ++ string_of_nat index else nm)
      | CInt n => Val (string_of_Z n)
      | CCons i => fv <- of_opt UStorage (nthZ (s_functors sto) i) ;; Val (fv_name fv)
      | CFun i _ =>
          fv <- of_opt UStorage (nthZ (s_functors sto) i) ;;
          if fv_is_empty_list fv then Val (if contig then "" else "[]")
          else if fv_is_append fv then Ub UAssert
          else if fv_is_list fv then
            hd <- str_of f h users false (d + 1) ;;
            rd <- deref H ops h (d + 2) ;;
            rc <- at_ H ops h rd ;;
            rest <- str_of f h users true (d + 2) ;;
            let body := hd ++ (match rc with CRef _ _ => "|" | _ => "," end) ++ rest in
            if contig then Val body else set_last ("[" ++ body) "]"%char
          else
            args <- (match fv_arity fv with
                     | 0 => str_of f h users false d
                     | S n => str_args (str_of f h users false) n (d + 1)
                     end) ;;
            Val (fv_name fv ++ "(" ++ args ++ ")")
      | CEval i _ =>
          nm <- of_opt UStorage (op_name i) ;;
          l <- str_of f h users false (d + 1) ;;
          r <- str_of f h users false (d + 2) ;;
          Val ("(" ++ l ++ " " ++ nm ++ " " ++ r ++ ")")
      | CStr _ => Ub UAssert
      end
  end.
End Print.

(** var_binding.cpp 6-9 *)
Definition binding_str (b : string * string) : string := "[" ++ fst b ++ " / " ++ snd b ++ "]".
Fixpoint bindings_str (l : list (string * string)) : string :=
  match l with
  | [] => ""
  | [b] => binding_str b
  | b :: l' => binding_str b ++ " " ++ bindings_str l'
  end.
(** result.cpp 8-27 *)
Definition answer_str (a : option (list (string * string))) : string :=
  match a with
  | None => "false"
  | Some [] => "true"
  | Some l => bindings_str l
  end.
