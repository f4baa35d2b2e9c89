(** Model of the angles between bonds of lib/particles.cpp: getAngle and, on positions, getAngularDistribution.
    Doubles are taken as real numbers (Reals of the standard library). *)
Require Import Reals ZArith QArith List Arith.
Require Import Verif.Base Verif.Ngb_Model Verif.Euler_Model Verif.Angle_Model.
Import ListNotations.
Local Open Scope R_scope.

(** index.hpp:63 [dot] *)
Definition dot3 (a b : vec) : R := let '(x, y, z) := a in let '(x', y', z') := b in x * x' + y * y' + z * z'.
(** particles.cpp:162-168 [getAngle]; indices in range *)
Definition get_angle (ps : list vec) (origin a b : nat) : R :=
  let va := get_diff ps origin a in let vb := get_diff ps origin b in acos (dot3 va vb / sqrt (dot3 va va * dot3 vb vb)).
(** particles.cpp:625: [(size_t)(getAngle(numPt,a,b) * 180.0 / M_PI)] *)
Definition angle_bin (ps : list vec) (origin a b : nat) : nat := Z.to_nat (Int_part (get_angle ps origin a b * 180 / PI)).
(** particles.cpp:610-628 [getAngularDistribution].  [None]: written out of the array. *)
Definition angles_around (ps : list vec) (ngb : list (list nat)) (num : nat) : option (list Q) := angular_distribution (angle_bin ps num) num (nth num ngb []).
