(** Two movies of the same motion, and what trajectories they have in common. *)
Require Import ZArith List Arith.
Require Import Verif.Particles_Model Verif.Particles_Spec Verif.Traj_Model Verif.Cluster_Spec Verif.Link_Spec.
Import ListNotations.
Local Open Scope nat_scope.

(** The position p at time t and the position p' at time t' are on the same trajectory. *)
Definition together (ti : trajindex) (t p t' p' : nat) : Prop := exists tr, on_traj ti tr t p /\ on_traj ti tr t' p'.
(** Two possible links from a frame to the next one that start at the same position, or end at the same position, have different lengths. *)
Definition no_tie (radius : Z) (frames : list particles) : Prop := forall t p q x y p' q' x' y',
  pos_at frames t p x -> pos_at frames (t + 1) q y -> pos_at frames t p' x' -> pos_at frames (t + 1) q' y' -> closer3 y x (2 * radius) -> closer3 y' x' (2 * radius) ->
  (p' = p /\ q' <> q) \/ (p' <> p /\ q' = q) -> dist2 y x <> dist2 y' x'.
(** The position p of frame t of the first movie is the position [s t p] of frame t of the second one ([u] is the way back), and the distances from a frame to
   the next one are k/k' times larger in the second movie.  Each pair of frames may be moved, turned, mirrored, and each frame renumbered. *)
Definition same_motion (k k' : Z) (s u : nat -> nat -> nat) (frames frames' : list particles) : Prop :=
  (0 < k)%Z /\ (0 < k')%Z /\
  (forall t p x, pos_at frames t p x -> (exists x', pos_at frames' t (s t p) x') /\ u t (s t p) = p) /\
  (forall t p x, pos_at frames' t p x -> (exists x', pos_at frames t (u t p) x') /\ s t (u t p) = p) /\
  forall t p q x y x' y', pos_at frames t p x -> pos_at frames (t + 1) q y -> pos_at frames' t (s t p) x' -> pos_at frames' (t + 1) (s (t + 1) q) y' ->
    (k' * k' * dist2 y' x' = k * k * dist2 y x)%Z.
