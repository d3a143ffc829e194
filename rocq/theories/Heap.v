(** The layered copy-on-write heap of executors, and the flat heap used as its specification. *)
From Verif Require Import Base Machine.

(** executor.h 59-65: heap_start_index, changes_to_parent, heap. *)
Record lheap := { l_start : nat; l_changes : list (nat * cell); l_own : list cell }.

(** unordered_map::find on changes_to_parent *)
Fixpoint find_change (i : nat) (l : list (nat * cell)) : option cell :=
  match l with
  | [] => None
  | (j, c) :: l' => if Nat.eqb i j then Some c else find_change i l'
  end.

Section Layered.
(** heap_at of the parent executor; [None] when there is no parent or the address is out of its range *)
Variable par : nat -> option cell.

(** executor.h 146-148 *)
Definition l_size (h : lheap) : nat := l_start h + List.length (l_own h).

(** executor.cpp 52-69 *)
Definition l_at (h : lheap) (i : nat) : option cell :=
  if Nat.ltb i (l_size h) then
    if Nat.leb (l_start h) i then nth_error (l_own h) (i - l_start h)
    else match find_change i (l_changes h) with
         | Some c => Some c
         | None => par i
         end
  else None.

(** executor.h 121-123 *)
Definition l_push (h : lheap) (c : cell) : lheap :=
  {| l_start := l_start h; l_changes := l_changes h; l_own := l_own h ++ [c] |}.

(** executor.cpp 31-50 followed by an assignment to the returned reference. Replacing the newest entry
    shadows older ones. *)
Definition l_set (h : lheap) (i : nat) (c : cell) : option lheap :=
  match l_at h i with
  | None => None
  | Some _ =>
      if Nat.leb (l_start h) i then
        option_map (fun o => {| l_start := l_start h; l_changes := l_changes h; l_own := o |})
                   (upd (l_own h) (i - l_start h) c)
      else Some {| l_start := l_start h; l_changes := (i, c) :: l_changes h; l_own := l_own h |}
  end.

Definition lops : hops lheap :=
  {| h_at := l_at; h_size := l_size; h_push := l_push; h_set := l_set |}.
End Layered.

(** Flat heaps: the specification of the layered ones. *)
Definition fops : hops (list cell) :=
  {| h_at := fun h i => nth_error h i;
     h_size := @List.length cell;
     h_push := fun h c => h ++ [c];
     h_set := fun h i c => upd h i c |}.
