(** Lines of a matrix of any number of dimensions (does not use the model). *)
Require Import List Arith.
Import ListNotations.

(** Number of elements; coordinates in a shape; position of an element in a continuous matrix, last dimension fastest. *)
Fixpoint size (shape : list nat) : nat := match shape with [] => 1 | n :: s => n * size s end.
Fixpoint valid (shape c : list nat) : Prop := match shape, c with [], [] => True | n :: s, x :: r => x < n /\ valid s r | _, _ => False end.
Fixpoint address (shape c : list nat) : nat := match shape, c with n :: s, x :: r => x * size s + address s r | _, _ => 0 end.
(** Coordinates with the one of [axis] replaced. *)
Fixpoint move (axis x : nat) (c : list nat) : list nat := match axis, c with 0, _ :: r => x :: r | S a, y :: r => y :: move a x r | _, [] => [] end.
(** The line along [axis] through c. *)
Definition line_through {V} (shape : list nat) (axis : nat) (im : list V) (c : list nat) (l : list V) : Prop :=
  length l = nth axis shape 0 /\ forall x, x < nth axis shape 0 -> nth_error l x = nth_error im (address shape (move axis x c)).
(** All the coordinates of a shape, in order of position. *)
Fixpoint all_coords (shape : list nat) : list (list nat) := match shape with [] => [[]] | n :: s => flat_map (fun x => map (cons x) (all_coords s)) (seq 0 n) end.
(** A line multiplied by a window: value x at place i of n becomes w n i x. *)
Definition tapered {V} (w : nat -> nat -> V -> V) (active : bool) (l : list V) : list V := if active then map (fun p => w (length l) (fst p) (snd p)) (combine (seq 0 (length l)) l) else l.
