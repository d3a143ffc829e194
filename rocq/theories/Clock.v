(** The result boxes as elements of the document, found by a number taken from the clock. *)
From Verif Require Import Base Machine Heap Compiler Parser Print Organizer Terminal Web.
Open Scope string_scope.
Open Scope list_scope.

(** An object of InterpreterHandler: its instanceid (InterpreterHandler.js 8), the interpreter, whether the field is still
    there, and the timers that wait (see Web.v). *)
Record obj := { ob_id : Z; ob_org : org; ob_alive : bool; ob_timers : list bool }.
(** The element of a result box (Result.js 41-57); [el_id]: the number in the values of its attributes id and onclick. *)
Record elt := { el_id : Z; el_head : string; el_shown : list string; el_next : bool; el_tree : bool }.
(** [dc_objs]: all objects made so far, in that order; [dc_inst]: the array instances (main.js 6), the newest entry for a
    number first; [dc_dom]: the children of results_container, in the order of the document. *)
Record doc := { dc_objs : list obj; dc_inst : list (Z * nat); dc_dom : list elt }.
Definition first_doc : doc := {| dc_objs := []; dc_inst := []; dc_dom := [] |}.

Fixpoint look (t : Z) (l : list (Z * nat)) : option nat :=
  match l with
  | [] => None
  | (k, j) :: l' => if Z.eqb k t then Some j else look t l'
  end.
(** getElementById returns the first element of the document with that id; [f x] is put in its place, or nothing. None:
    there is no such element, and the use of null throws. *)
Fixpoint by_id (t : Z) (f : elt -> option elt) (l : list elt) : option (list elt) :=
  match l with
  | [] => None
  | x :: l' => if Z.eqb (el_id x) t then Some (match f x with Some y => y :: l' | None => l' end)
               else match by_id t f l' with Some r => Some (x :: r) | None => None end
  end.
Fixpoint put (j : nat) (x : obj) (l : list obj) : list obj :=
  match l, j with
  | [], _ => []
  | _ :: l', 0 => x :: l'
  | y :: l', S j' => y :: put j' x l'
  end.

(** Result.js 25-34, 72-95, with the calls in InterpreterHandler.js 77-87 and 158-167 *)
Definition el_callback (first : bool) (s : string) (x : elt) : option elt :=
  Some {| el_id := el_id x; el_head := el_head x; el_shown := el_shown x ++ [s];
          el_next := if first then (if String.eqb s "false" then el_next x else true)
                     else (if String.eqb s "false" then false else el_next x);
          el_tree := if first then true else el_tree x |}.
Definition ob_with (ob : obj) (o : org) (l : list bool) : obj := {| ob_id := ob_id ob; ob_org := o; ob_alive := ob_alive ob; ob_timers := l |}.
(** what an exception leaves: nothing more is done (in 143-147 the callback is called again, and throws again) *)
Definition or_else (d : option (list elt)) (l : list elt) : list elt := match d with Some r => r | None => l end.

(** InterpreterHandler.js 103-140, for the object [j] *)
Definition answer_of (cf : cfg) (v : view) (first : bool) (j : nat) (ob : obj) (p : doc) : out doc :=
  if ob_alive ob then
    '(r, o) <- get_answer cf (v_fuel v) (v_n v) (v_world v) (ob_org ob) ;;
    let told s := {| dc_objs := put j (ob_with ob o (ob_timers ob)) (dc_objs p); dc_inst := dc_inst p;
                     dc_dom := or_else (by_id (ob_id ob) (el_callback first s) (dc_dom p)) (dc_dom p) |} in
    Val match r with
        | ROutOfTime =>
            if v_memory v then told memory_text
            else {| dc_objs := put j (ob_with ob o (ob_timers ob ++ [first])) (dc_objs p); dc_inst := dc_inst p; dc_dom := dc_dom p |}
        | _ => told (page_text r)
        end
  else Val {| dc_objs := put j ob (dc_objs p); dc_inst := dc_inst p; dc_dom := dc_dom p |}.

(** main.js 58-77: [t] is what Date.now() says. The object is entered in instances also if an alert is shown. *)
Definition enter (t : Z) (o : org) (p : doc) : doc :=
  {| dc_objs := dc_objs p ++ [{| ob_id := t; ob_org := o; ob_alive := true; ob_timers := [] |}];
     dc_inst := (t, List.length (dc_objs p)) :: dc_inst p; dc_dom := dc_dom p |}.
Definition new_elt (t : Z) (query : string) : elt := {| el_id := t; el_head := query; el_shown := []; el_next := false; el_tree := false |}.
Definition add_elt (x : elt) (p : doc) : doc := {| dc_objs := dc_objs p; dc_inst := dc_inst p; dc_dom := dc_dom p ++ [x] |}.
Definition doc_run (cf : cfg) (t : Z) (v : view) (program query : string) (p : doc) : out doc :=
  o <- new_org cf ;;
  match load_program cf program (set_time_limit 100000 o) with
  | None => Fuel
  | Some (r, o1) =>
      if reports_error r then Val (enter t o1 p)
      else match load_query cf query o1 with
           | None => Fuel
           | Some (r2, o2) =>
               if reports_error r2 then Val (enter t o2 p)
               else answer_of cf v true (List.length (dc_objs p)) {| ob_id := t; ob_org := o2; ob_alive := true; ob_timers := [] |}
                      (add_elt (new_elt t query) (enter t o2 p))
           end
  end.

(** the object whose methods the buttons of the element [x] call (Result.js 50, 53) *)
Definition called (x : elt) (p : doc) : option (nat * obj) :=
  match look (el_id x) (dc_inst p) with
  | Some j => match nth_error (dc_objs p) j with Some ob => Some (j, ob) | None => None end
  | None => None
  end.
(** [DTimer j k]: the [k]th timer of the object [j]; [DNext e], [DContinue e], [DKill e]: Next, a click on
    "*continue search*" in the tree just opened, and the cross of the [e]th element of the document. *)
Inductive devent := DRun (t : Z) (v : view) (program query : string) | DTimer (j k : nat) (v : view) | DNext (e : nat) (v : view)
  | DContinue (e : nat) (v : view) | DKill (e : nat).
Definition dstep (cf : cfg) (ev : devent) (p : doc) : out doc :=
  match ev with
  | DRun t v program query => doc_run cf t v program query p
  | DTimer j k v =>
      match nth_error (dc_objs p) j with
      | Some ob =>
          match nth_error (ob_timers ob) k with
          | Some first => answer_of cf v first j (ob_with ob (ob_org ob) (firstn k (ob_timers ob) ++ skipn (S k) (ob_timers ob))) p
          | None => Val p
          end
      | None => Val p
      end
  | DNext e v =>
      match nth_error (dc_dom p) e with
      | Some x => if el_next x then match called x p with Some (j, ob) => answer_of cf v false j ob p | None => Val p end else Val p
      | None => Val p
      end
  | DContinue e v =>
      match nth_error (dc_dom p) e with
      | Some x => if el_tree x then match called x p with Some (j, ob) => answer_of cf v false j ob p | None => Val p end else Val p
      | None => Val p
      end
  (* InterpreterHandler.js 184-191, Result.js 63-65: without an interpreter 185 throws *)
  | DKill e =>
      match nth_error (dc_dom p) e with
      | Some x =>
          match called x p with
          | Some (j, ob) =>
              Val (if ob_alive ob then
                     {| dc_objs := put j {| ob_id := ob_id ob; ob_org := clear_memory (ob_org ob); ob_alive := false; ob_timers := ob_timers ob |} (dc_objs p);
                        dc_inst := dc_inst p; dc_dom := or_else (by_id (ob_id ob) (fun _ => None) (dc_dom p)) (dc_dom p) |}
                   else p)
          | None => Val p
          end
      | None => Val p
      end
  end.
Fixpoint dsteps (cf : cfg) (es : list devent) (p : doc) : out doc :=
  match es with
  | [] => Val p
  | e :: es' => p1 <- dstep cf e p ;; dsteps cf es' p1
  end.
(** what the clock said at the clicks on Run *)
Fixpoint clocks (es : list devent) : list Z :=
  match es with
  | [] => []
  | DRun t _ _ _ :: es' => t :: clocks es'
  | _ :: es' => clocks es'
  end.
(** the object and the element together, as in Web.v *)
Definition box_of (ob : obj) (x : elt) : box :=
  {| b_org := ob_org ob; b_alive := ob_alive ob; b_head := el_head x; b_shown := el_shown x; b_next := el_next x; b_tree := el_tree x;
     b_timers := ob_timers ob |}.
