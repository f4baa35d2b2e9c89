(** Sizes of waves.  The wave of frequency (f0,f1,f2) has f0 periods in the n0 slices of the image, f1 in its n1 lines and f2 in its n2 columns, up to signs. *)
Require Import Reals Arith.
Require Import Verif.Tracker_Spec.
Local Open Scope R_scope.
(** The inverse of the wavelength, squared, when slices are [dz] apart, lines and columns [dx] apart *)
Definition wavenumber2 (n0 n1 n2 : nat) (dz dx : R) (f : nat * nat * nat) : R :=
  (INR (freq n0 (fst (fst f))) / (INR n0 * dz)) ^ 2 + (INR (freq n1 (snd (fst f))) / (INR n1 * dx)) ^ 2 + (INR (freq n2 (snd f)) / (INR n2 * dx)) ^ 2.
(** Half a period of the wave is at least [r] (the wave of null frequency has an infinite period); is less than [r] *)
Definition half_period_at_least (r q2 : R) : Prop := q2 * (2 * r) ^ 2 <= 1.
Definition half_period_less (r q2 : R) : Prop := 1 < q2 * (2 * r) ^ 2.
(** exp(2 i pi / n) *)
Definition unit_root (n : nat) : R * R := (cos (2 * PI / INR n), sin (2 * PI / INR n)).
