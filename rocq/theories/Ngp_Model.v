(** The non Gaussian parameter on real positions: getNonGaussian and get_MSD_NGP. *)
Require Import Reals List Arith.
Require Import Verif.Base Verif.Traj_Model Verif.Corr_Model Verif.Euler_Model Verif.Wave_Model.
Local Open Scope R_scope.

(** dynamicParticles.cpp:742 and 757: sd*sd *)
Definition quartic (sd : R) : R := sd * sd.
(** dynamicParticles.cpp:747 and 761: [nb*selection.size()/3.0 * sumQD/sumSD/sumSD].  A null sumSD gives a nan in the program: the theorems exclude it. *)
Definition ngp_ratio (nb k : nat) (sumQD sumSD : R) : R := INR nb * INR k / 3 * sumQD / sumSD / sumSD.
(** dynamicParticles.cpp:798 and 817: [NGP *= nb * nb_selection / (3.0 * MSD * MSD)] *)
Definition ngp_scaled (nb k : nat) (sumQD sumSD : R) : R := sumQD * (INR nb * INR k / (3 * sumSD * sumSD)).
(** dynamicParticles.cpp:799 and 818: [MSD /= n * pow(2.0*radius,2.0)] where [n] gathers the counts *)
Definition per_diameter (radius sd : R) (n : nat) : R := sd / (INR n * (2 * radius) ^ 2).
(** dynamicParticles.cpp:721-766 [getNonGaussian], in exact arithmetic *)
Definition non_gaussian (frames : list (list vec)) (ti : trajindex) (sel : list nat) (t0 t1 t3 : nat) : outcome (list R) :=
  get_non_gaussian vec R 0 Rplus square_distance quartic ngp_ratio frames ti sel t0 t1 t3.
(** dynamicParticles.cpp:769-821 [get_MSD_NGP], in exact arithmetic: for each lag the MSD and the NGP *)
Definition msd_ngp (radius : R) (frames : list (list vec)) (ti : trajindex) (sel : list nat) (t0 t1 t3 : nat) : outcome (list (R * R)) :=
  get_msd_ngp vec R 0 Rplus square_distance quartic ngp_scaled (per_diameter radius) frames ti sel t0 t1 t3.
