(** The mean square displacement on rational positions, to be used with the removal of the drift. *)
Require Import ZArith QArith List.
Require Import Verif.Base Verif.Traj_Model Verif.Corr_Model Verif.Drive_Model.
Local Open Scope Q_scope.

(** dynamicParticles.cpp:612-624 [getSD] of a selection: dot(diff, diff) of the displacement from p to q *)
Definition square_length (p q : pos3) : Q := (x_of q - x_of p) * (x_of q - x_of p) + (y_of q - y_of p) * (y_of q - y_of p) + (z_of q - z_of p) * (z_of q - z_of p).
(** dynamicParticles.cpp:655-680: division by a number of terms.  A null number (no trajectory) is excluded by the theorems. *)
Definition shared_by (s : Q) (n : nat) : Q := s / inject_Z (Z.of_nat n).
(** dynamicParticles.cpp:649-681 [getMSD] of a selection, in exact arithmetic on rational positions *)
Definition msd3 (frames : list (list pos3)) (ti : trajindex) (sel : list nat) (t0 t1 t3 : nat) : outcome (list Q) :=
  get_msd pos3 Q 0 Qplus shared_by square_length frames ti sel t0 t1 t3.
