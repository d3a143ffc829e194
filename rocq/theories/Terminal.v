(** The terminal front end: src/app_runner/normal_mode.cpp. *)
From Verif Require Import Base Machine Heap Compiler Parser Print Organizer.
Open Scope string_scope.
Open Scope list_scope.

Definition nl : string := String (ascii_of_nat 10) "".
Definition newline : ascii := ascii_of_nat 10.

(** std::cin: the characters not yet read, and good(). Reading past the end clears good() for ever. *)
Record istream := { i_rest : string; i_good : bool }.
(** up to a delimiter, which is removed; None: the end comes first *)
Fixpoint break_at (d : ascii) (s : string) : string * option string :=
  match s with
  | "" => ("", None)
  | String c r => if Ascii.eqb c d then ("", Some r) else let '(a, x) := break_at d r in (String c a, x)
  end.
(** std::getline(std::cin, str, d); [old]: the value of str before. If the stream is not good, str is left alone. *)
Definition getline (d : ascii) (old : string) (i : istream) : string * istream :=
  if i_good i then
    match break_at d (i_rest i) with
    | (a, Some r) => (a, {| i_rest := r; i_good := true |})
    | (a, None) => (a, {| i_rest := ""; i_good := false |})
    end
  else (old, i).
(** std::cin.ignore(n, '\n') *)
Fixpoint ignore_to (n : nat) (s : string) : istream :=
  match n with
  | 0 => {| i_rest := s; i_good := true |}
  | S n' => match s with
            | "" => {| i_rest := ""; i_good := false |}
            | String c r => if Ascii.eqb c newline then {| i_rest := r; i_good := true |} else ignore_to n' r
            end
  end.
Definition ignore_max : nat := Z.to_nat 1024.
Definition ignore (i : istream) : istream := if i_good i then ignore_to ignore_max (i_rest i) else i.

(** the explanations of runtime errors: err_handling.cpp 8-27, arithmetic_checks.cpp 8-18, bfs_organizer.cpp 55, 69 *)
Definition explain (r : res) : option string :=
  match r with
  | RError EDivBy0 => Some "ERROR: Arithmetic: evaluation error: zero_divisor"
  | RError (EUnbound v) => Some ("ERROR: Arguments are not sufficiently instantiatedHint: " ++ v ++ " points to nothing and is therefore not evaluable")%string
  | RError (ENotArith f) => Some ("ERROR: Arithmetic: " ++ fv_name f ++ "/" ++ string_of_nat (fv_arity f) ++ " is not a function")%string
  | ROutOfTime => Some "Time limit exceeded"
  | ROutOfMemory => Some "Memory exhausted."
  | _ => None
  end.

(** normal_mode.cpp 63-64: the bindings, a line break between two *)
Fixpoint lines_str (l : list (string * string)) : string :=
  match l with
  | [] => ""
  | [b] => binding_str b
  | b :: l' => (binding_str b ++ nl ++ lines_str l')%string
  end.

(** Where the program is: at the prompt (normal_mode.cpp 35), or about to show an answer (58). [t_cur]: cur_input; [t_k]: the number of calls of
    get_answer so far. *)
Record tstate := { t_in : istream; t_cur : string; t_org : org; t_k : nat; t_show : option (list (string * string)) }.
(** how it ends: "q.", or by a failed assert or an exception nobody catches *)
Inductive tend := TQuit | TAbort.

Section Terminal.
Variable cf : cfg.
Variable fuel n : nat.
Variable ws : nat -> world.   (** the outside world during the k-th get_answer *)

Definition back (s : tstate) (i : istream) (cur : string) (o : org) : tstate :=
  {| t_in := i; t_cur := cur; t_org := o; t_k := S (t_k s); t_show := None |}.
(** 35-56: one round of the outer loop up to the inner one *)
Definition at_prompt (s : tstate) : out (string * (tstate + tend)) :=
  let '(cur, i1) := getline "." (t_cur s) (t_in s) in
  if cur =? "q" then Val ("?- ", inr TQuit)
  else
    let i2 := ignore i1 in
    match load_query cf cur (t_org s) with
    | None => Fuel
    | Some (LEscape, _) => Val ("?- ", inr TAbort)
    | Some (_, o1) =>
        '(r, o2) <- get_answer cf fuel n (ws (t_k s)) o1 ;;
        match explain r with
        | Some e => Val (("?- error: " ++ e ++ nl)%string, inl (back s i2 cur o2))
        | None =>
            match r with
            | RAnswer b => Val ("?- ", inl {| t_in := i2; t_cur := cur; t_org := o2; t_k := S (t_k s); t_show := Some b |})
            | _ => Val (("?- false" ++ nl)%string, inl (back s i2 cur o2))
            end
        end
    end.
(** 56-82: one round of the inner loop. After an error get_answer() of the result is called (result.h 39-42), which asserts
    that it is none (and throws std::bad_variant_access if asserts are off). *)
Definition at_answer (s : tstate) (b : list (string * string)) : out (string * (tstate + tend)) :=
  let stay := {| t_in := t_in s; t_cur := t_cur s; t_org := t_org s; t_k := t_k s; t_show := None |} in
  match b with
  | [] => Val (("true" ++ nl)%string, inl stay)
  | _ =>
      let '(more, i1) := getline newline "" (t_in s) in
      if more =? ";" then
        '(r, o2) <- get_answer cf fuel n (ws (t_k s)) (t_org s) ;;
        match explain r with
        | Some e => Val ((lines_str b ++ "Error: " ++ e ++ nl)%string, inr TAbort)
        | None =>
            match r with
            | RAnswer b' => Val (lines_str b, inl {| t_in := i1; t_cur := t_cur s; t_org := o2; t_k := S (t_k s); t_show := Some b' |})
            | _ => Val ((lines_str b ++ "false" ++ nl)%string, inl (back s i1 (t_cur s) o2))
            end
        end
      else Val (lines_str b, inl {| t_in := i1; t_cur := t_cur s; t_org := t_org s; t_k := t_k s; t_show := None |})
  end.
Definition tstep (s : tstate) : out (string * (tstate + tend)) :=
  match t_show s with None => at_prompt s | Some b => at_answer s b end.
(** [k] rounds *)
Fixpoint tsteps (k : nat) (s : tstate) : out (string * (tstate + tend)) :=
  match k with
  | 0 => Val ("", inl s)
  | S k' =>
      '(w, x) <- tstep s ;;
      match x with
      | inr e => Val (w, inr e)
      | inl s' => '(v, y) <- tsteps k' s' ;; Val ((w ++ v)%string, y)
      end
  end.

Definition greeting : string :=
  ("Entered query mode. Type " ++ String (ascii_of_nat 34) "q." ++ String (ascii_of_nat 34) " to quit" ++ nl ++
   "Enter a query (e.G. " ++ String (ascii_of_nat 34) "p(Z)." ++ String (ascii_of_nat 34) "). Make sure to add the ." ++ nl ++
   "To get more than 1 unification, type " ++ String (ascii_of_nat 34) ";" ++ String (ascii_of_nat 34) " + Enter " ++ nl ++
   "Bugreports are welcome: https://github.com/LhKipp/Prolog_BFS" ++ nl)%string.
(** 16-25: load_program is given the path, not the contents of the file; its result is not looked at *)
Fixpoint load_files (paths : list string) (o : org) : out (option org) :=
  match paths with
  | [] => Val (Some o)
  | p :: ps => match load_program cf p o with
               | None => Fuel
               | Some (LEscape, _) => Val None
               | Some (_, o') => load_files ps o'
               end
  end.
(** the whole program with the paths given on the command line and the text typed in, for [k] rounds *)
Definition normal_mode (paths : list string) (input : string) (k : nat) : out (string * (tstate + tend)) :=
  o <- new_org cf ;;
  x <- load_files paths o ;;
  match x with
  | None => Val ("", inr TAbort)
  | Some o1 =>
      '(w, y) <- tsteps k {| t_in := {| i_rest := input; i_good := true |}; t_cur := ""; t_org := o1; t_k := 0; t_show := None |} ;;
      Val (((match paths with [] => "No file found to read source code from!" ++ nl | _ => "" end) ++ greeting ++ w)%string, y)
  end.
End Terminal.
