(** A small specification of the language, independent of the machine: ground terms, instances of clauses,
    logical consequence, evaluation of expressions, standard notation of terms. *)
From Verif Require Import Base Compiler Print.
Open Scope string_scope.
Open Scope list_scope.

(** Ground terms. A list cell is [GFun "[" [head; tail]], the empty list [GFun "[" []]; an arithmetic expression
    is [GEv op [l; r]]. *)
Inductive gterm :=
| GCon (s : string)
| GInt (n : Z)
| GFun (s : string) (l : list gterm)
| GEv (s : string) (l : list gterm).

(** Value of an integer literal. *)
Definition lit_val (s : string) : Z := match int_text_val s with Some n => n | None => 0%Z end.

(** Ground instance of a parsed term under a valuation of its variables. *)
Fixpoint inst (v : string -> gterm) (n : node) : gterm :=
  match n with
  | NVar s => v s
  | NCon s => GCon s
  | NInt s => GInt (lit_val s)
  | NFun s l => GFun s (map (inst v) l)
  | NEv s l => GEv s (map (inst v) l)
  end.

(** Evaluation in unbounded integers; [pw] is the meaning of ^. *)
Fixpoint aeval (pw : Z -> Z -> option Z) (t : gterm) : option Z :=
  match t with
  | GInt n => Some n
  | GEv op [l; r] =>
      match aeval pw l, aeval pw r with
      | Some a, Some b =>
          if op =? "+" then Some (a + b)%Z
          else if op =? "-" then Some (a - b)%Z
          else if op =? "*" then Some (a * b)%Z
          else if op =? "//" then if (b =? 0)%Z then None else Some (Z.quot a b)
          else if op =? "^" then pw a b
          else None
      | _, _ => None
      end
  | _ => None
  end.

(** Logical consequences of a program (a clause is its head followed by its body) and of the built-in relations.
    [\==] is not a relation between ground terms (it depends on when it is asked), so here it holds always. *)
Inductive prov (pw : Z -> Z -> option Z) (P : list (list node)) : gterm -> Prop :=
| prov_clause h b v : In (h :: b) P -> (forall a, In a b -> prov pw P (inst v a)) -> prov pw P (inst v h)
| prov_eq t : prov pw P (GFun "==" [t; t])
| prov_neq t u : prov pw P (GFun "\==" [t; u])
| prov_is n e : aeval pw e = Some n -> prov pw P (GFun "is" [GInt n; e]).

(** append([],L,L).  append([X|Xs],Ys,[X|Rs]) :- append(Xs,Ys,Rs). *)
Definition append_prog : list (list node) :=
  [ [NFun "append" [NFun "[" []; NVar "L"; NVar "L"]];
    [NFun "append" [NFun "[" [NVar "X"; NVar "Xs"]; NVar "Ys"; NFun "[" [NVar "X"; NVar "Rs"]];
     NFun "append" [NVar "Xs"; NVar "Ys"; NVar "Rs"]] ].

(** Terms with variables; a variable carries an identity and the name it is printed with. *)
Inductive tm :=
| TVar (a : nat) (nm : string)
| TCon (s : string)
| TInt (n : Z)
| TFun (s : string) (l : list tm)
| TEv (s : string) (l : list tm).

Fixpoint ginst (g : nat -> gterm) (t : tm) : gterm :=
  match t with
  | TVar a _ => g a
  | TCon s => GCon s
  | TInt n => GInt n
  | TFun s l => GFun s (map (ginst g) l)
  | TEv s l => GEv s (map (ginst g) l)
  end.

(** A ground term as a term *)
Fixpoint tm_of (t : gterm) : tm :=
  match t with
  | GCon s => TCon s
  | GInt n => TInt n
  | GFun s l => TFun s (map tm_of l)
  | GEv s l => TEv s (map tm_of l)
  end.

(** Standard notation. [tail]: inside a list, after an element. *)
Fixpoint show_at (tail : bool) (t : tm) {struct t} : string :=
  let plain := match t with
               | TVar _ nm => nm
               | TCon s => s
               | TInt n => string_of_Z n
               | TFun s l => (s ++ "(" ++ String.concat "," (map (show_at false) l) ++ ")")%string
               | TEv s [l; r] => ("(" ++ show_at false l ++ " " ++ s ++ " " ++ show_at false r ++ ")")%string
               | TEv s l => s
               end in
  match t with
  | TFun s [] => if s =? "[" then (if tail then "" else "[]") else if tail then ("|" ++ plain)%string else plain
  | TFun s [h; r] =>
      if s =? "[" then
        if tail then ("," ++ show_at false h ++ show_at true r)%string
        else ("[" ++ show_at false h ++ show_at true r ++ "]")%string
      else if tail then ("|" ++ plain)%string else plain
  | _ => if tail then ("|" ++ plain)%string else plain
  end.
Definition show (t : tm) : string := show_at false t.
Definition show_ground (t : gterm) : string := show (tm_of t).

(** All lists inside the term end in the empty list. *)
Fixpoint ends_list (t : tm) : bool :=
  match t with
  | TFun s [] => s =? "["
  | TFun s [_; r] => (s =? "[") && ends_list r
  | _ => false
  end.
Fixpoint proper (t : tm) : bool :=
  match t with
  | TFun s l => forallb proper l && (if s =? "[" then ends_list t else true)
  | TEv _ l => forallb proper l
  | _ => true
  end.

(** What is printed for a term: as the standard notation, but the separator before the tail of a list is a comma
    unless the tail is a variable, and the last character of a list is overwritten by the bracket. *)
Fixpoint relast (s : string) (c : ascii) : string :=
  match s with
  | EmptyString => EmptyString
  | String _ EmptyString => String c EmptyString
  | String b s' => String b (relast s' c)
  end.
Fixpoint printed (contig : bool) (t : tm) {struct t} : string :=
  match t with
  | TVar _ nm => nm
  | TCon s => s
  | TInt n => string_of_Z n
  | TFun s l =>
      match l with
      | [] => if s =? "[" then (if contig then "" else "[]") else (s ++ "()")%string
      | [x; r] =>
          if s =? "[" then
            let body := (printed false x ++ (match r with TVar _ _ => "|" | _ => "," end) ++ printed true r)%string in
            if contig then body else relast ("[" ++ body) "]"
          else (s ++ "(" ++ String.concat "," (map (printed false) l) ++ ")")%string
      | _ => (s ++ "(" ++ String.concat "," (map (printed false) l) ++ ")")%string
      end
  | TEv s [l; r] => ("(" ++ printed false l ++ " " ++ s ++ " " ++ printed false r ++ ")")%string
  | TEv s _ => s
  end.
(** Spelling: the names of variables begin with a capital, those of constants and functors with a small letter; letters,
    digits and underscores follow. Lists and the comparisons have names of their own. *)
Definition one_of (s : string) (c : ascii) : bool := existsb (Ascii.eqb c) (list_ascii_of_string s).
Definition small : ascii -> bool := one_of "abcdefghijklmnopqrstuvwxyz".
Definition capital : ascii -> bool := one_of "ABCDEFGHIJKLMNOPQRSTUVWXYZ".
Definition name_char (c : ascii) : bool := small c || capital c || one_of "0123456789_" c.
Definition name_with (first : ascii -> bool) (s : string) : bool :=
  match list_ascii_of_string s with c :: l => first c && forallb name_char l | [] => false end.
Definition functor_name (s : string) : bool := name_with small s || existsb (String.eqb s) ["["; "=="; "\=="].
Fixpoint spelled (t : tm) : bool :=
  match t with
  | TVar _ nm => name_with capital nm
  | TCon s => name_with small s
  | TInt _ => true
  | TFun s l => (if s =? "[" then Nat.eqb (List.length l) 0 || Nat.eqb (List.length l) 2 else functor_name s && negb (Nat.eqb (List.length l) 0)) && forallb spelled l
  | TEv s l => existsb (String.eqb s) ["^"; "+"; "-"; "*"; "//"] && Nat.eqb (List.length l) 2 && forallb spelled l
  end.
(** The binding list [b] shows the terms [sg]. *)
Definition reads (b : list (string * string)) (sg : string -> tm) : Prop :=
  forall x s, In (x, s) b -> s = printed false (sg x).

(** The variables of a parsed term. *)
Fixpoint nvars (n : node) : list string :=
  match n with
  | NVar s => [s]
  | NFun _ l | NEv _ l => flat_map nvars l
  | _ => []
  end.

(** Number of goals called in a proof (built-in goals count one). *)
Inductive prov_in (pw : Z -> Z -> option Z) (P : list (list node)) : nat -> gterm -> Prop :=
| pin_clause h b v ns : In (h :: b) P -> Forall2 (fun a n => prov_in pw P n (inst v a)) b ns ->
    prov_in pw P (S (fold_right Nat.add 0 ns)) (inst v h)
| pin_eq t : prov_in pw P 1 (GFun "==" [t; t])
| pin_neq t u : prov_in pw P 1 (GFun "\==" [t; u])
| pin_is n e : aeval pw e = Some n -> prov_in pw P 1 (GFun "is" [GInt n; e]).
