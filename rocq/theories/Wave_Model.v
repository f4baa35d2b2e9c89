(** Model of the intermediate scattering functions of lib/dynamicParticles on real numbers: the waves are the cosine and the sine of the product of the position and the wave vector.
    Doubles are taken as real numbers (Reals of the standard library); the loops are those of Corr_Model and Isf_Model. *)
Require Import Reals List.
Require Import Verif.Traj_Model Verif.Particles_Model Verif.Corr_Model Verif.Isf_Model Verif.Euler_Model.
Local Open Scope R_scope.

(** dynamicParticles.cpp:842-844, 907-909: dot of a position and of the wave vector, its cosine and its sine *)
Definition product3 (a b : vec) : R := let '(x, y, z) := a in let '(x', y', z') := b in x * x' + y * y' + z * z'.
Definition wave_of (q p : vec) : R * R := (cos (product3 p q), sin (product3 p q)).
(** dynamicParticles.cpp:838: the valarrays A and B start at 0; 843-844: they add up the waves *)
Definition wave_add (a b : R * R) : R * R := (fst a + fst b, snd a + snd b).
(** dynamicParticles.cpp:856, 922, 934: A[stop]*A[start]+B[stop]*B[start] *)
Definition wave_cross (x y : R * R) : R := fst x * fst y + snd x * snd y.
(** dynamicParticles.cpp:626, 863, 926, 935: division by a number of terms.  Over 0 terms the result (nan) is not modelled: the theorems exclude it. *)
Definition over (s : R) (n : nat) : R := s / INR n.
(** dynamicParticles.cpp:612-625: diff*diff summed *)
Definition square_distance (a b : vec) : R := let '(x, y, z) := a in let '(x', y', z') := b in (x' - x) * (x' - x) + (y' - y) * (y' - y) + (z' - z) * (z' - z).
(** dynamicParticles.cpp:828-867 [getISF] *)
Definition isf (q : vec) (frames : list (list vec)) (ti : trajindex) (sel : list nat) (t0 t1 : nat) : outcome (list R) :=
  get_isf vec R 0 Rplus over (R * R) (0, 0) wave_add (wave_of q) wave_cross 1 frames ti sel t0 t1.
(** dynamicParticles.cpp:896-942 [getSelfISF] of a selection *)
Definition self_isf (q : vec) (frames : list (list vec)) (ti : trajindex) (sel : list nat) (t0 t1 t3 : nat) : outcome (list R) :=
  get_self_isf vec R 0 Rplus over (R * R) (wave_of q) wave_cross 1 frames ti sel t0 t1 t3.
(** dynamicParticles.cpp:649-681 [getMSD] of a selection *)
Definition msd (frames : list (list vec)) (ti : trajindex) (sel : list nat) (t0 t1 t3 : nat) : outcome (list R) :=
  get_msd vec R 0 Rplus over square_distance frames ti sel t0 t1 t3.
(** dynamicParticles.cpp:975-977: the three wave vectors *)
Definition axis_q (radius : R) (d : nat) : vec := match d with O => (PI / radius, 0, 0) | S O => (0, PI / radius, 0) | _ => (0, 0, PI / radius) end.
(** dynamicParticles.cpp:970-1012 [getSelfISF] over the three axes *)
Definition self_isf_xyz (radius : R) (frames : list (list vec)) (ti : trajindex) (t0 t1 t2 : nat) : outcome (list R) :=
  self_isf_axes vec R 0 Rplus over (fun n x => INR n * x) (R * R) (fun d => wave_of (axis_q radius d)) wave_cross 1 frames ti t0 t1 t2.
