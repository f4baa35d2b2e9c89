(** Two samples that differ only by where they are, how they are turned, how the particles are numbered and the unit of length. *)
Require Import ZArith List Arith.
Require Import Verif.Particles_Spec.
Import ListNotations.

(** [s] renumbers the particles: the particle i of the first sample is the particle [s i] of the second one.  All distances of the second sample are
   [k] times those of the first one.  Nothing is said on the axes, the origin, the handedness. *)
Definition alike (k : Z) (s : nat -> nat) (l l' : list (list Z)) : Prop :=
  (0 < k)%Z /\ length l' = length l /\ (forall i, i < length l -> s i < length l) /\ (forall i j, i < length l -> j < length l -> s i = s j -> i = j) /\
  forall i j p q p' q', nth_error l i = Some p -> nth_error l j = Some q -> nth_error l' (s i) = Some p' -> nth_error l' (s j) = Some q' ->
    dist2 p' q' = (k * k * dist2 p q)%Z.
