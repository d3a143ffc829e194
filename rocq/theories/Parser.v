(** The Boost.Spirit grammars as parsing functions.
    Sequence >> fails softly (the caller may try another alternative); an expectation > that is not met
    throws and ends the whole parse in the error handler of the start rule (base_grammar.h 163-173). *)
From Verif Require Import Base Machine Compiler.
Open Scope string_scope.

Inductive pres (A : Type) := POk (a : A) (rest : string) | PFail | PThrow | PFuel.
Arguments POk {A}. Arguments PFail {A}. Arguments PThrow {A}. Arguments PFuel {A}.

(** >> : a failure is a soft failure *)
Notation "p '-->' x '@' r '=>>' k" :=
  (match p with POk x r => k | PFail => PFail | PThrow => PThrow | PFuel => PFuel end)
  (at level 61, x pattern, r name, right associativity).
(** > : a failure throws *)
Notation "p '-!>' x '@' r '=>>' k" :=
  (match p with POk x r => k | PFail => PThrow | PThrow => PThrow | PFuel => PFuel end)
  (at level 61, x pattern, r name, right associativity).
(** | *)
Notation "p '<|>' q" := (match p with PFail => q | x => x end) (at level 62, right associativity).

Definition code (c : ascii) : nat := nat_of_ascii c.
Definition in_range (lo hi : nat) (c : ascii) : bool := Nat.leb lo (code c) && Nat.leb (code c) hi.
(** boost::spirit::qi::space, std::isspace for bytes below 128 (bytes above are not white space) *)
Definition is_space (c : ascii) : bool := in_range 9 13 c || Nat.eqb (code c) 32.
Definition is_lower (c : ascii) : bool := in_range 97 122 c.
Definition is_upper (c : ascii) : bool := in_range 65 90 c.
Definition is_digit (c : ascii) : bool := in_range 48 57 c.
(** char_("a-zA-Z_0-9") *)
Definition is_idc (c : ascii) : bool := is_lower c || is_upper c || is_digit c || Nat.eqb (code c) 95.

Fixpoint skip (s : string) : string :=
  match s with
  | String c s' => if is_space c then skip s' else s
  | EmptyString => s
  end.
Fixpoint strip (w s : string) : option string :=
  match w with
  | EmptyString => Some s
  | String c w' => match s with
                   | String d s' => if Ascii.eqb c d then strip w' s' else None
                   | EmptyString => None
                   end
  end.
(** lit / string / char_ of a fixed text, with the skipper before it *)
Definition lit (w s : string) : pres unit :=
  match strip w (skip s) with Some r => POk tt r | None => PFail end.
Fixpoint take (f : ascii -> bool) (s : string) : string * string :=
  match s with
  | String c s' => if f c then let '(a, r) := take f s' in (String c a, r) else (EmptyString, s)
  | EmptyString => (EmptyString, EmptyString)
  end.
(** a first character and then characters of [is_idc], without skipping inside *)
Definition ident (first : ascii -> bool) (s : string) : pres string :=
  match skip s with
  | String c s' => if first c then let '(a, r) := take is_idc s' in POk (String c a) r else PFail
  | EmptyString => PFail
  end.

Definition parser := string -> pres node.

(** base_grammar.h 86-88 *)
Definition p_constant : parser := fun s => ident is_lower s --> nm @ r =>> POk (NCon nm) r.
Definition p_variable : parser := fun s => ident is_upper s --> nm @ r =>> POk (NVar nm) r.
Definition p_number : parser := fun s =>
  let s0 := skip s in
  let '(sign, s1) := match s0 with
                     | String c s' => if Ascii.eqb c "-"%char then ("-", s') else ("", s0)
                     | EmptyString => ("", s0)
                     end in
  let '(ds, r) := take is_digit s1 in
  match ds with EmptyString => PFail | _ => POk (NInt (sign ++ ds)) r end.

(** base_grammar.h 79 *)
Definition not_newline (c : ascii) : bool := negb (Nat.eqb (code c) 10).
Definition p_comment (s : string) : pres unit :=
  match skip s with
  | String c s' =>
      if Ascii.eqb c "%"%char then
        let '(_, r) := take not_newline s' in
        match r with String _ r' => POk tt r' | EmptyString => PThrow end
      else PFail
  | EmptyString => PFail
  end.

(** elem % ',' after the first element. The fuel bounds the number of elements; the text length is enough. *)
Fixpoint sep_rest {A} (n : nat) (elem : string -> pres A) (s : string) : pres (list A) :=
  match n with
  | 0 => PFuel
  | S n' =>
      match lit "," s with
      | POk _ s1 =>
          match elem s1 with
          | POk a s2 => sep_rest n' elem s2 --> l @ s3 =>> POk (a :: l) s3
          | PFail => POk [] s
          | PThrow => PThrow
          | PFuel => PFuel
          end
      | _ => POk [] s
      end
  end.
Definition sep {A} (elem : string -> pres A) (s : string) : pres (list A) :=
  elem s --> a @ r =>> (sep_rest (S (String.length r)) elem r --> l @ r' =>> POk (a :: l) r').

(** *(op > operand) for a list of operator texts tried in order *)
Fixpoint p_op (ops : list string) (s : string) : pres string :=
  match ops with
  | [] => PFail
  | o :: ops' => match lit o s with POk _ r => POk o r | _ => p_op ops' s end
  end.
Fixpoint chain (n : nat) (ops : list string) (operand : parser) (s : string)
  : pres (list (string * node)) :=
  match n with
  | 0 => PFuel
  | S n' =>
      match p_op ops s with
      | POk o s1 =>
          operand s1 -!> v @ s2 =>> (chain n' ops operand s2 --> l @ s3 =>> POk ((o, v) :: l) s3)
      | _ => POk [] s
      end
  end.
(** node.cpp 86-106 *)
Fixpoint chained_node (v : node) (l : list (string * node)) : node :=
  match l with
  | [] => v
  | (o, w) :: l' => NEv o [v; chained_node w l']
  end.

(** base_grammar.h 109-120; [expr] is the recursive occurrence inside parentheses *)
Definition p_value (expr : parser) : parser := fun s =>
  p_variable s <|> p_number s <|>
  (lit "(" s --> _ @ s1 =>> (expr s1 -!> e @ s2 =>> (lit ")" s2 -!> _ @ s3 =>> POk e s3))).
Definition p_power (expr : parser) : parser := fun s =>
  p_value expr s --> v @ s1 =>>
  match lit "^" s1 with
  | POk _ s2 => p_value expr s2 -!> w @ s3 =>> POk (NEv "^" [v; w]) s3
  | _ => POk v s1
  end.
Definition p_product (expr : parser) : parser := fun s =>
  p_power expr s --> v @ s1 =>>
  (chain (S (String.length s1)) ["*"; "//"] (p_power expr) s1 --> l @ s2 =>> POk (chained_node v l) s2).
Definition p_expr_of (expr : parser) : parser := fun s =>
  p_product expr s --> v @ s1 =>>
  (chain (S (String.length s1)) ["+"; "-"] (p_product expr) s1 --> l @ s2 =>> POk (chained_node v l) s2).

(** node.cpp 127-157 *)
Fixpoint list_node (l : list node) (tail : node) : node :=
  match l with
  | [] => tail
  | a :: l' => NFun "[" [a; list_node l' tail]
  end.
Definition nil_node : node := NFun "[" [].

(** base_grammar.h 93-99 *)
Definition p_list_of (elem list : parser) : parser := fun s =>
  (lit "[" s --> _ @ s1 =>> (lit "]" s1 --> _ @ s2 =>> POk nil_node s2))
  <|> (lit "[" s --> _ @ s1 =>> (sep elem s1 --> l @ s2 =>> (lit "]" s2 --> _ @ s3 =>>
       POk (list_node l nil_node) s3)))
  <|> (lit "[" s --> _ @ s1 =>> (sep elem s1 --> l @ s2 =>> (lit "|" s2 --> _ @ s3 =>>
       ((p_variable s3 <|> list s3) --> t @ s4 =>> (lit "]" s4 --> _ @ s5 =>>
        POk (list_node l t) s5))))).

(** base_grammar.h 81-85 *)
Definition p_functor_of (elem : parser) : parser := fun s =>
  ident is_lower s --> nm @ s1 =>>
  match strip "(" s1 with
  | Some s2 => sep elem s2 -!> l @ s3 =>> (lit ")" s3 -!> _ @ s4 =>> POk (NFun nm l) s4)
  | None => PFail
  end.

(** base_grammar.h 101 *)
Definition p_elem_of (elem list expr : parser) : parser := fun s =>
  p_functor_of elem s <|> p_constant s <|> p_list_of elem list s <|> p_expr_of expr s.

(** prolog_element, list and expression to a given nesting depth *)
Fixpoint p_rec (n : nat) : parser * parser * parser :=
  match n with
  | 0 => (fun _ => PFuel, fun _ => PFuel, fun _ => PFuel)
  | S n' => let '(e, l, x) := p_rec n' in (p_elem_of e l x, p_list_of e l, p_expr_of x)
  end.
Definition p_elem (n : nat) : parser := fst (fst (p_rec n)).
Definition p_expr (n : nat) : parser := snd (p_rec n).
Definition p_functor (n : nat) : parser := p_functor_of (p_elem n).

(** base_grammar.h 104-106, 123-129 *)
Definition p_binary (l r : parser) (op : string) : parser := fun s =>
  l s --> a @ s1 =>> (lit op s1 --> _ @ s2 =>> (r s2 --> b @ s3 =>> POk (NFun op [a; b]) s3)).
Definition p_atom (n : nat) : parser := fun s =>
  p_binary (p_elem n) (p_elem n) "==" s
  <|> p_binary (p_elem n) (p_elem n) "\==" s
  <|> p_binary (p_elem n) (p_expr n) "is" s
  <|> p_functor n s
  <|> p_constant s.

(** program_grammar.h 44-48 *)
Definition p_clause (n : nat) (s : string) : pres (list node) :=
  (p_functor n s <|> p_constant s) --> h @ s1 =>>
  ((match (lit ":-" s1 --> _ @ s2 =>> sep (p_atom n) s2) with
    | PFail => POk [] s1
    | x => x
    end) -!> b @ s3 =>> (lit "." s3 -!> _ @ s4 =>> POk (h :: b) s4)).
(** program_grammar.h 39-41 *)
Definition p_rule (n : nat) (s : string) : pres (list node) :=
  p_clause n s --> c @ s1 =>>
  ((p_comment s1 <|> POk tt s1) --> _ @ s2 =>> POk c s2).

(** program_grammar.h 36: *(comment | rule), comments are dropped here (compiler.cpp 468-470) *)
Fixpoint p_rules (k n : nat) (s : string) : pres (list (list node)) :=
  match k with
  | 0 => PFuel
  | S k' =>
      match p_comment s with
      | POk _ s1 => p_rules k' n s1
      | PThrow => PThrow
      | PFuel => PFuel
      | PFail =>
          match p_rule n s with
          | POk c s1 => p_rules k' n s1 --> l @ s2 =>> POk (c :: l) s2
          | PFail => POk [] s
          | PThrow => PThrow
          | PFuel => PFuel
          end
      end
  end.

(** parser.h 34-46 *)
Definition parse_program (s : string) : option (cres (list (list node))) :=
  let n := S (String.length s) in
  match p_rules n n s with
  | POk l r => match skip r with EmptyString => Some (COk l) | _ => Some (CErr CParser) end
  | PFail | PThrow => Some (CErr CParser)
  | PFuel => None
  end.

(** query_grammar.h 30-32 and parser.h 18-31 *)
Definition parse_query (s : string) : option (cres (list node)) :=
  let n := S (String.length s) in
  match sep (p_atom n) s with
  | POk l r =>
      match lit "." r with
      | POk _ r' => match skip r' with EmptyString => Some (COk l) | _ => Some (CErr CNone) end
      | PFuel => None
      | _ => Some (CErr CParser)
      end
  | PFail | PThrow => Some (CErr CParser)
  | PFuel => None
  end.

(** bfs_util.cpp 8-20 *)
Fixpoint rev_string (s acc : string) : string :=
  match s with EmptyString => acc | String c s' => rev_string s' (String c acc) end.
Definition append_dot (s : string) : string :=
  let r := rev_string s "" in
  match skip r with
  | EmptyString => s
  | String c r' =>
      if Ascii.eqb c "."%char then s
      else
        let kept := rev_string (String c r') "" in
        kept ++ "." ++ rev_string (fst (take is_space r)) ""
  end.
