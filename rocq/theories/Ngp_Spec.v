(** Vocabulary for the non Gaussian parameter, independent of the model's functions. *)
Require Import Reals List.
Require Import Verif.Euler_Model Verif.Euler_Spec Verif.Wave_Spec.
Import ListNotations.
Local Open Scope R_scope.

(** Mean of the square length and of the fourth power of the length of some displacements. *)
Definition second_moment (ds : list vec) : R := mean_of (map (fun d => dot d d) ds).
Definition fourth_moment (ds : list vec) : R := mean_of (map (fun d => (dot d d) ^ 2) ds).
(** At least one of them is not null. *)
Definition some_motion (ds : list vec) : Prop := exists d, In d ds /\ d <> null_vec.
(** All have the same length. *)
Definition same_lengths (ds : list vec) : Prop := forall d e, In d ds -> In e ds -> dot d d = dot e e.
(** Exactly one is not null. *)
Definition lone_motion (ds : list vec) : Prop := exists l d r, ds = l ++ d :: r /\ d <> null_vec /\ forall e, In e (l ++ r) -> e = null_vec.
