(** Vocabulary for the cubic order parameter, independent of the model's functions. *)
Require Import Reals List Arith.
Require Import Verif.Euler_Model Verif.Euler_Spec Verif.Angle_Spec.
Import ListNotations.
Local Open Scope R_scope.

(** Two lists of bonds with, two by two, the same angles. *)
Definition same_angles (vs ws : list vec) : Prop :=
  length vs = length ws /\ forall i j, (i < length vs)%nat -> (j < length vs)%nat -> cosine (nth i vs null_vec) (nth j vs null_vec) = cosine (nth i ws null_vec) (nth j ws null_vec).
(** Bonds that join different points. *)
Definition true_bonds (vs : list vec) : Prop := Forall (fun v => v <> null_vec) vs.
