(** A movie of particles that are known by name, slow enough to be followed. *)
Require Import ZArith List Arith.
Require Import Verif.Particles_Model Verif.Particles_Spec Verif.Link_Spec.
Import ListNotations.
Local Open Scope nat_scope.

(** The position p of frame t is that of the particle named [who t p]; two positions of a frame are of two particles. *)
Definition named (who : nat -> nat -> nat) (frames : list particles) : Prop := forall t p p' x x',
  pos_at frames t p x -> pos_at frames t p' x' -> who t p = who t p' -> p = p'.
(** The particle named [a] is seen in frame t. *)
Definition seen (who : nat -> nat -> nat) (frames : list particles) (a t : nat) : Prop := exists p x, pos_at frames t p x /\ who t p = a.
(** Two particles of a frame are at least [s] apart. *)
Definition apart (s : Z) (frames : list particles) : Prop := forall t p p' x x', pos_at frames t p x -> pos_at frames t p' x' -> p <> p' -> (s * s <= dist2 x x')%Z.
(** From a frame to the next one a particle moves by less than [d]. *)
Definition slower (who : nat -> nat -> nat) (d : Z) (frames : list particles) : Prop := forall t p q x y, pos_at frames t p x -> pos_at frames (t + 1) q y -> who t p = who (t + 1) q -> (dist2 y x < d * d)%Z.
(** No particle is first seen closer than [l] to the last position of another one. *)
Definition no_swap (who : nat -> nat -> nat) (l : Z) (frames : list particles) : Prop := forall t p q x y, pos_at frames t p x -> pos_at frames (t + 1) q y ->
  ~ seen who frames (who t p) (t + 1) -> ~ seen who frames (who (t + 1) q) t -> ~ closer3 y x l.
