(** The web page as a whole: its result boxes and the one window in which trees are drawn. *)
From Verif Require Import Base Machine Heap Compiler Parser Print Organizer Tree Terminal Web.
Open Scope list_scope.

(** [pg_boxes]: the objects of InterpreterHandler (main.js 60-62; the numbers Date.now() are taken to differ), each with the
    drawing_id of its TreeView (TreeView.js 55-58); [pg_newest]: TreeView.newest_drawing_id (317); [pg_window]: whose tree
    was last drawn into the window, and the state of its interpreter at that time. *)
Record page := { pg_boxes : list (box * nat); pg_newest : nat; pg_window : option (nat * org) }.
Definition first_page : page := {| pg_boxes := []; pg_newest := 1; pg_window := None |}.

Fixpoint set_nth {A} (i : nat) (x : A) (l : list A) : list A :=
  match l, i with
  | [], _ => []
  | _ :: l', 0 => x :: l'
  | y :: l', S i' => y :: set_nth i' x l'
  end.
Definition with_box (p : page) (i : nat) (b : box) (d : nat) : page :=
  {| pg_boxes := set_nth i (b, d) (pg_boxes p); pg_newest := pg_newest p; pg_window := pg_window p |}.
(** InterpreterHandler.js 90, 172 *)
Definition bump (p : page) : page := {| pg_boxes := pg_boxes p; pg_newest := S (pg_newest p); pg_window := pg_window p |}.

(** TreeView.js 60-73, 101 *)
Definition draw_box (i : nat) (b : box) (d : nat) (p : page) : page :=
  if Nat.eqb d (pg_newest p) then p
  else {| pg_boxes := set_nth i (b, S (pg_newest p)) (pg_boxes p); pg_newest := S (pg_newest p); pg_window := Some (i, b_org b) |}.

(** [PRun]: main.js 58-77; [PTimer], [PNext], [PKill]: as in Web.v, for the box [i]; [PTree]: the button "Show tree view",
    InterpreterHandler.js 175-179; [PContinue]: a click on "*continue search*" in the window, TreeView.js 104-112 (if the box was closed,
    109 throws after newest_drawing_id was incremented). *)
Inductive pevent := PRun (v : view) (program query : string) | PTimer (i k : nat) (v : view) | PNext (i : nat) (v : view)
  | PKill (i : nat) | PTree (i : nat) | PContinue (v : view).

Definition pstep (cf : cfg) (e : pevent) (p : page) : out page :=
  match e with
  | PRun v program query =>
      x <- run_clicked cf v program query ;;
      Val match x with
          | Alerted _ => p
          | Opened b => {| pg_boxes := pg_boxes p ++ [(b, 0)]; pg_newest := S (pg_newest p); pg_window := pg_window p |}
          end
  | PTimer i k v =>
      match nth_error (pg_boxes p) i with
      | Some (b, d) => b1 <- step cf (EvTimer k v) b ;; Val (with_box p i b1 d)
      | None => Val p
      end
  | PNext i v =>
      match nth_error (pg_boxes p) i with
      | Some (b, d) => if (b_alive b && b_next b)%bool then b1 <- step cf (EvNext v) b ;; Val (bump (with_box p i b1 d)) else Val p
      | None => Val p
      end
  | PKill i =>
      match nth_error (pg_boxes p) i with
      | Some (b, d) => b1 <- step cf EvKill b ;; Val (with_box p i b1 d)
      | None => Val p
      end
  | PTree i =>
      match nth_error (pg_boxes p) i with
      | Some (b, d) => Val (if (b_alive b && b_tree b)%bool then draw_box i b d p else p)
      | None => Val p
      end
  | PContinue v =>
      match pg_window p with
      | Some (i, _) =>
          match nth_error (pg_boxes p) i with
          | Some (b, d) =>
              if b_alive b then b1 <- step cf (EvContinue v) b ;; Val (draw_box i b1 d (bump (with_box p i b1 d))) else Val (bump p)
          | None => Val p
          end
      | None => Val p
      end
  end.
Fixpoint psteps (cf : cfg) (es : list pevent) (p : page) : out page :=
  match es with
  | [] => Val p
  | e :: es' => p1 <- pstep cf e p ;; psteps cf es' p1
  end.
