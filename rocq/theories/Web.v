(** The web front end: one result box of the page, from Run to its closing. *)
From Verif Require Import Base Machine Heap Compiler Parser Print Organizer Terminal.
Open Scope string_scope.
Open Scope list_scope.

(** wam_result_types: isAnswer/getAnswerAsString, and getExplanation for errors (InterpreterHandler.js 112-135) *)
Definition page_text (r : res) : string :=
  match r with
  | RFalse => answer_str None
  | RAnswer b => answer_str (Some b)
  | _ => match explain r with Some s => s | None => "" end
  end.
(** InterpreterHandler.js 128 *)
Definition memory_text : string := "Soft memory limit reached. Please close some results.".

(** One object of InterpreterHandler together with its Result and the timers it has set.
    [b_alive]: the field interpreter is there (false once kill was called, 185-192);
    [b_head]: what stands after "?- " in the box (Result.js 46);
    [b_shown]: the innerHTML of the paragraphs appended (Result.js 25-34);
    [b_next], [b_tree]: whether the two buttons are enabled (Result.js 53-54, 72-96);
    [b_timers]: the calls of runOnce waiting in the event loop (139); true: the callback is that of tryExecute,
    false: that of onNextClicked. *)
Record box := { b_org : org; b_alive : bool; b_head : string; b_shown : list string; b_next : bool; b_tree : bool;
  b_timers : list bool }.

(** InterpreterHandler.js 74-85 and 160-169 *)
Definition callback (first : bool) (s : string) (b : box) : box :=
  {| b_org := b_org b; b_alive := b_alive b; b_head := b_head b; b_shown := b_shown b ++ [s];
     b_next := if first then (if String.eqb s "false" then b_next b else true)
               else (if String.eqb s "false" then false else b_next b);
     b_tree := if first then true else b_tree b;
     b_timers := b_timers b |}.

(** What the outside does in one event: as in get_answer, and whether isMemoryLimitReached (main.js 88-90) says so.
    [v_fuel], [v_n]: bounds on the work of the call, see Organizer.v. *)
Record view := { v_fuel : nat; v_n : nat; v_world : world; v_memory : bool }.

Definition with_org (b : box) (o : org) : box :=
  {| b_org := o; b_alive := b_alive b; b_head := b_head b; b_shown := b_shown b; b_next := b_next b; b_tree := b_tree b; b_timers := b_timers b |}.
Definition with_timers (b : box) (l : list bool) : box :=
  {| b_org := b_org b; b_alive := b_alive b; b_head := b_head b; b_shown := b_shown b; b_next := b_next b; b_tree := b_tree b; b_timers := l |}.

(** InterpreterHandler.js 103-140 *)
Definition run_once (cf : cfg) (v : view) (first : bool) (b : box) : out box :=
  if b_alive b then
    '(r, o) <- get_answer cf (v_fuel v) (v_n v) (v_world v) (b_org b) ;;
    let b1 := with_org b o in
    Val match r with
        | ROutOfTime => if v_memory v then callback first memory_text b1 else with_timers b1 (b_timers b1 ++ [first])
        | _ => callback first (page_text r) b1
        end
  else Val b.

(** What can happen to a box: one of its timers fires (in any order), a click on Next if the button is enabled, a click
    on a node "*continue search*" of its tree (TreeView.js 104-112; the tree can be opened once that button is enabled, and
    the state of Next is not looked at), a click on the cross. A box that was removed gets no clicks. *)
Inductive event := EvTimer (i : nat) (v : view) | EvNext (v : view) | EvContinue (v : view) | EvKill.
Definition step (cf : cfg) (e : event) (b : box) : out box :=
  match e with
  | EvTimer i v =>
      match nth_error (b_timers b) i with
      | Some first => run_once cf v first (with_timers b (firstn i (b_timers b) ++ skipn (S i) (b_timers b)))
      | None => Val b
      end
  (* 159-175 *)
  | EvNext v => if (b_alive b && b_next b)%bool then run_once cf v false b else Val b
  | EvContinue v => if (b_alive b && b_tree b)%bool then run_once cf v false b else Val b
  (* 185-192, wasm.cpp 22-25 *)
  | EvKill =>
      if b_alive b then
        Val {| b_org := clear_memory (b_org b); b_alive := false; b_head := ""; b_shown := []; b_next := false; b_tree := false; b_timers := b_timers b |}
      else Val b
  end.
Fixpoint steps (cf : cfg) (es : list event) (b : box) : out box :=
  match es with
  | [] => Val b
  | e :: es' => b1 <- step cf e b ;; steps cf es' b1
  end.

(** What Run does (main.js 58-77, InterpreterHandler.js 15-27, 43-93): an alert (also when an exception escapes) or a
    box. *)
Inductive outcome := Alerted (r : load_res) | Opened (b : box).
Definition opened (o : org) (query : string) : box :=
  {| b_org := o; b_alive := true; b_head := query; b_shown := []; b_next := false; b_tree := false; b_timers := [] |}.
Definition run_clicked (cf : cfg) (v : view) (program query : string) : out outcome :=
  o <- new_org cf ;;
  match load_program cf program (set_time_limit 100000 o) with
  | None => Fuel
  | Some (r, o1) =>
      if reports_error r then Val (Alerted r)
      else match load_query cf query o1 with
           | None => Fuel
           | Some (r2, o2) =>
               if reports_error r2 then Val (Alerted r2)
               else b <- run_once cf v true (opened o2 query) ;; Val (Opened b)
           end
  end.
