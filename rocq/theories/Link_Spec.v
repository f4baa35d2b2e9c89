(** Vocabulary for the linking of positions into trajectories. *)
Require Import ZArith List Arith.
Require Import Verif.RTree_Model Verif.Particles_Model Verif.Particles_Spec.
Import ListNotations.
Local Open Scope nat_scope.

(** A set of three-dimensional positions whose index, if it has one, was not left behind by a change of scale. *)
Definition frame_ready (c : config) (st : particles) : Prop :=
  exists l bb r ops, Forall point3 l /\ Forall pop_ok ops /\ (indexed ops = true \/ ~ In PIndex ops) /\ prun c (new_particles l bb r) ops = Some st.
(** Position [p] of frame number [t]. *)
Definition pos_at (frames : list particles) (t p : nat) (x : list Z) : Prop :=
  exists st, nth_error frames t = Some st /\ nth_error (pts st) p = Some x.

(** The numbers of a file, two per time step, zero after its end: displacement of time step t. *)
Definition displ_at (nums : list Z) (t : nat) : Z * Z := (nth (2 * t) nums 0%Z, nth (2 * t + 1) nums 0%Z).
(** The sum of the displacements of the time steps from a to b (b included). *)
Definition total (f : nat -> Z) (a b : nat) : Z := fold_right Z.add 0%Z (map f (seq a (b + 1 - a))).
