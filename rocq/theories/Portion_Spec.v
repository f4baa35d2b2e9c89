(** A part of a movie, in time and in space. *)
Require Import ZArith List Arith.
Require Import Verif.Particles_Model Verif.Particles_Spec Verif.Link_Spec.
Import ListNotations.
Local Open Scope nat_scope.

(** The frame t of the first movie is taken from the frame a+t of the second one: its position p is the position [s t p] there.
   No position that was left out is closer than [l] to one that was kept in the frame before or in the frame after. *)
Definition extract (l : Z) (a : nat) (s : nat -> nat -> nat) (part frames : list particles) : Prop :=
  (forall t p x, pos_at part t p x -> pos_at frames (a + t) (s t p) x) /\
  (forall t p p' x x', pos_at part t p x -> pos_at part t p' x' -> s t p = s t p' -> p = p') /\
  (forall t p q x y, pos_at part t p x -> t + 1 < length part -> pos_at frames (a + t + 1) q y -> closer3 y x l -> exists q', s (t + 1) q' = q /\ pos_at part (t + 1) q' y) /\
  (forall t p q x y, pos_at part (t + 1) q y -> pos_at frames (a + t) p x -> closer3 y x l -> exists p', s t p' = p /\ pos_at part t p' x).
