(** Model of the scales of an octave, multiscale/src/octavefinder.cpp and octavefinder.hpp.  Doubles are taken as real numbers (Reals of the standard library). *)
Require Import Reals ZArith Arith.
Local Open Scope R_scope.

Section Scale.
  (** [n]: get_n_layers(); [k]: preblur_radius. *)
  Variables (n : nat) (k : R).
  (** octavefinder.cpp:976-978, 1005-1008: the target blurring radii, sigmas[i]. *)
  Definition sigma (i : nat) : R := k * Rpower 2 (INR i / INR n).
  (** The same at any scale: the width of the blur at which the response of scale s is looked for (gaussianResponse). *)
  Definition sigma_at (s : R) : R := k * Rpower 2 (s / INR n).
  (** octavefinder.cpp:980-984 in one and two dimensions, 1010 in three. *)
  Definition prefactor (dim : nat) : R :=
    match dim with
    | 1%nat => sqrt (2 * ln 2 / INR n / (Rpower 2 (2 / INR n) - 1))
    | 2%nat => 2 * sqrt (ln 2 / INR n / (Rpower 2 (2 / INR n) - 1))
    | _ => sqrt (6 * ln 2 / INR n / (Rpower 2 (2 / INR n) - 1))
    end.
  (** octavefinder.cpp:985-987, 1011-1013: sizes[i], the conversion to int of a positive number. *)
  Definition blob_size (dim i : nat) : Z := Int_part (sigma i * prefactor dim + 0.5).
  (** octavefinder.cpp:989-991, 1015-1017: iterative_radii[i]. *)
  Definition iterative_radius (i : nat) : R := sqrt (sigma (S i) * sigma (S i) - sigma i * sigma i).
  (** octavefinder.cpp:829-832 [get_iterative_radius]. *)
  Definition radius_between (larger smaller : R) : R := k * sqrt (Rpower 2 (2 * larger / INR n) - Rpower 2 (2 * smaller / INR n)).
  (** octavefinder.hpp:55-57 [scale]: from a scale to a radius in pixels. *)
  Definition radius_of_scale (dim : nat) (s : R) : R := prefactor dim * k * Rpower 2 ((s + 1) / INR n).
End Scale.
