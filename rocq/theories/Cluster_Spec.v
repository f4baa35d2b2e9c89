(** Vocabulary for clusters: connected components. *)
Require Import ZArith List Arith Relation_Operators Sorted.
Require Import Verif.Traj_Model Verif.Traj_Spec Verif.Particles_Spec.
Import ListNotations.

(** a and b are joined by a chain of links inside the population. *)
Definition edge (ngbs : list (list nat)) (pop : list nat) (a b : nat) : Prop := In a pop /\ In b pop /\ linked ngbs a b.
Definition connected (ngbs : list (list nat)) (pop : list nat) (a b : nat) : Prop :=
  In a pop /\ In b pop /\ clos_refl_trans nat (edge ngbs pop) a b.
(** The clusters are the classes of a relation on the population, each once. *)
Definition classes (R : nat -> nat -> Prop) (pop : list nat) (clusters : list (list nat)) : Prop :=
  (forall x, In x pop <-> exists cl, In cl clusters /\ In x cl) /\
  (forall k cl, nth_error clusters k = Some cl -> cl <> [] /\ StronglySorted lt cl) /\
  (forall k k' cl cl' x, nth_error clusters k = Some cl -> nth_error clusters k' = Some cl' -> In x cl -> In x cl' -> k = k') /\
  (forall cl x y, In cl clusters -> In x cl -> (In y cl <-> R x y)).

(** At time t the trajectories a and b of the population are joined by a chain of links between positions of that time. *)
Definition tedge (ti : trajindex) (ngbs : list (list nat)) (population : list nat) (t a b : nat) : Prop :=
  In a population /\ In b population /\
  exists A B p q, nth_error (trajs ti) a = Some A /\ nth_error (trajs ti) b = Some B /\ at_time A t p /\ at_time B t q /\ linked ngbs p q.
Definition tconnected (ti : trajindex) (ngbs : list (list nat)) (population : list nat) (t a b : nat) : Prop :=
  clos_refl_trans nat (tedge ti ngbs population t) a b.
(** The inverse of the index agrees with its trajectories (as built by TrajIndex, C19); times are size_t. *)
Definition consistent (ti : trajindex) : Prop :=
  (forall t p tr, invert ti t p = Some tr <-> exists T, nth_error (trajs ti) tr = Some T /\ at_time T t p) /\
  (forall tr T, nth_error (trajs ti) tr = Some T -> steps T <> [] /\ (Z.of_nat (start T + length (steps T)) <= 2 ^ 64)%Z).

(** The clusters of more than one trajectory: sorted, disjoint, and each the whole of what is connected to any of its members. *)
Definition cluster_partition (R : nat -> nat -> Prop) (ms : list (list nat)) : Prop :=
  (forall k m, nth_error ms k = Some m -> StronglySorted lt m /\ 2 <= length m) /\
  (forall k k' m m' a, nth_error ms k = Some m -> nth_error ms k' = Some m' -> In a m -> In a m' -> k = k') /\
  (forall a b, a <> b -> (R a b <-> exists m, In m ms /\ In a m /\ In b m)).

(** How much two clusters overlap. *)
Definition shared (K S : list nat) : nat := length (filter (fun x => existsb (Nat.eqb x) S) K).
(** The union is less than three times the intersection: |K| + |S| - shared < 3 shared. *)
Definition overlap (K S : list nat) : Prop := length K + length S < 4 * shared K S.
(** K and S overlap at least as well as K' and S': union/intersection is not larger. *)
Definition at_least_as_close (K S K' S' : list nat) : Prop := (length K + length S) * shared K' S' <= (length K' + length S') * shared K S.
(** Trajectory number [tr] is at position [p] at time [t]. *)
Definition on_traj (c : trajindex) (tr t p : nat) : Prop := exists T, nth_error (trajs c) tr = Some T /\ at_time T t p.
