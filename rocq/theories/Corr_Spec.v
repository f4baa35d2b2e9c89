(** Vocabulary for time correlations. *)
Require Import List Arith.
Require Import Verif.Traj_Model Verif.Traj_Spec Verif.Dyn_Spec.
Import ListNotations.
Local Open Scope nat_scope.

(** Every selected trajectory has a position at time t. *)
Definition present (ti : trajindex) (sel : list nat) (t : nat) : Prop := forall tr, In tr sel -> exists T p, nth_error (trajs ti) tr = Some T /\ at_time T t p.
(** The positions of the selected trajectories at time t, in order. *)
Definition placed {P} (frames : list (list P)) (ti : trajindex) (sel : list nat) (t : nat) (ps : list P) : Prop :=
  Forall2 (fun tr p => exists T, nth_error (trajs ti) tr = Some T /\ value_at frames T t p) sel ps.
(** The sum of the square displacements of some trajectories between two times. *)
Definition sum_sd {P V} (zero : V) (add : V -> V -> V) (sqd : P -> P -> V) (frames : list (list P)) (ti : trajindex) (sel : list nat) (a b : nat) (v : V) : Prop :=
  exists ps qs, placed frames ti sel a ps /\ placed frames ti sel b qs /\ v = fold_left add (map (fun pq => sqd (fst pq) (snd pq)) (combine ps qs)) zero.
